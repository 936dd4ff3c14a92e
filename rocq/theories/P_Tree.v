(** Proofs about decision trees. *)
From Coq Require Import List Arith ZArith Reals Bool Lia Lra Permutation Classical.
From Verif Require Import L_List M_Order P_Order M_Dynamic P_Dynamic M_Tree S_Tree.
Import ListNotations.

Lemma leaves_pos t : 1 <= leaves t.
Proof. induction t; simpl; lia. Qed.
Lemma leaves_branches t : leaves t = S (branches t).
Proof. induction t; simpl; lia. Qed.

(** ** the column *)
Lemma column_some xdata d plist :
  (forall row, In row xdata -> d < length row) -> Forall (fun i => i < length xdata) plist ->
  exists xd, column xdata d plist = Some xd /\ length xd = length plist /\
    forall n i, nth_error plist n = Some i -> nth_error xd n = cell_at xdata i d /\ cell_at xdata i d <> None.
Proof.
  intros Hd H. induction H as [|i plist Hi H IH].
  - exists []. split; [reflexivity|]. split; [reflexivity|]. intros n i E. destruct n; discriminate.
  - destruct IH as [xd [E [L IH]]]. unfold column in *. cbn [fold_right]. rewrite E.
    destruct (nth_error xdata i) as [row|] eqn:Er; [|apply nth_error_None in Er; lia].
    pose proof (Hd row (nth_error_In _ _ Er)) as Hr.
    destruct (nth_error row d) as [c|] eqn:Ec; [|apply nth_error_None in Ec; lia].
    exists (c :: xd). split; [reflexivity|]. split; [simpl; lia|].
    intros [|n] j Ej; simpl in *.
    + injection Ej as <-. unfold cell_at. rewrite Er, Ec. split; [reflexivity|discriminate].
    + apply IH. exact Ej.
Qed.

(** ** minimum and maximum *)
Lemma fold_none f l : fold_left (lift2 f) l None = None.
Proof. induction l; simpl; auto. Qed.

Lemma fold_some_none f l a : In None l -> fold_left (lift2 f) l a = None.
Proof.
  revert a. induction l as [|x l IH]; intros a H; [contradiction|]. simpl. destruct H as [->|H].
  - destruct a; simpl; apply fold_none.
  - apply IH, H.
Qed.

Lemma fold_min l : forall a, ~ In None l ->
  exists m, fold_left (lift2 Rmin) l (Some a) = Some m /\ In (Some m) (Some a :: l) /\
            forall x, In (Some x) (Some a :: l) -> (m <= x)%R.
Proof.
  induction l as [|x l IH]; intros a N.
  - exists a. split; [reflexivity|]. split; [left; reflexivity|]. intros x [E|[]]. injection E as <-. lra.
  - destruct x as [x|]; [|exfalso; apply N; left; reflexivity]. simpl fold_left.
    destruct (IH (Rmin a x)) as [m [E [Im Hm]]]; [intros F; apply N; right; exact F|].
    exists m. split; [exact E|]. split.
    + destruct Im as [Im|Im]; [|right; right; exact Im]. injection Im as <-.
      unfold Rmin. destruct (Rle_dec a x); [left|right; left]; reflexivity.
    + intros y [Ey|[Ey|Hy]].
      * injection Ey as <-. eapply Rle_trans; [apply Hm; left; reflexivity|apply Rmin_l].
      * injection Ey as <-. eapply Rle_trans; [apply Hm; left; reflexivity|apply Rmin_r].
      * apply Hm. right. exact Hy.
Qed.

Lemma fold_max l : forall a, ~ In None l ->
  exists m, fold_left (lift2 Rmax) l (Some a) = Some m /\ In (Some m) (Some a :: l) /\
            forall x, In (Some x) (Some a :: l) -> (x <= m)%R.
Proof.
  induction l as [|x l IH]; intros a N.
  - exists a. split; [reflexivity|]. split; [left; reflexivity|]. intros x [E|[]]. injection E as <-. lra.
  - destruct x as [x|]; [|exfalso; apply N; left; reflexivity]. simpl fold_left.
    destruct (IH (Rmax a x)) as [m [E [Im Hm]]]; [intros F; apply N; right; exact F|].
    exists m. split; [exact E|]. split.
    + destruct Im as [Im|Im]; [|right; right; exact Im]. injection Im as <-.
      unfold Rmax. destruct (Rle_dec a x); [right; left|left]; reflexivity.
    + intros y [Ey|[Ey|Hy]].
      * injection Ey as <-. eapply Rle_trans; [apply Rmax_l|apply Hm; left; reflexivity].
      * injection Ey as <-. eapply Rle_trans; [apply Rmax_r|apply Hm; left; reflexivity].
      * apply Hm. right. exact Hy.
Qed.

Lemma extreme_nan f v : In None v -> extreme f v = None.
Proof.
  destruct v as [|a v]; [contradiction|]. intros [->|H]; simpl.
  - apply fold_none.
  - apply fold_some_none, H.
Qed.

Lemma extreme_min v : v <> [] -> ~ In None v ->
  exists m, extreme Rmin v = Some m /\ In (Some m) v /\ forall x, In (Some x) v -> (m <= x)%R.
Proof.
  destruct v as [|[a|] v]; [congruence| |intros _ N; exfalso; apply N; left; reflexivity].
  intros _ N. apply fold_min. intros F. apply N. right. exact F.
Qed.
Lemma extreme_max v : v <> [] -> ~ In None v ->
  exists m, extreme Rmax v = Some m /\ In (Some m) v /\ forall x, In (Some x) v -> (x <= m)%R.
Proof.
  destruct v as [|[a|] v]; [congruence| |intros _ N; exfalso; apply N; left; reflexivity].
  intros _ N. apply fold_max. intros F. apply N. right. exact F.
Qed.

(** ** the comparison *)
Lemma where_true_In plist : forall b i, length b = length plist ->
  In i (where_true plist b) <-> exists n, nth_error plist n = Some i /\ nth_error b n = Some true.
Proof.
  induction plist as [|j plist IH]; intros [|c b] i L; simpl in L; try discriminate.
  - simpl. split; [contradiction|]. intros [n [E _]]. destruct n; discriminate.
  - injection L as L. destruct c; simpl.
    + split.
      * intros [->|H]; [exists 0; auto|]. apply IH in H; [|exact L]. destruct H as [n [H1 H2]].
        exists (S n). auto.
      * intros [[|n] [H1 H2]]; simpl in *; [injection H1 as <-; left; reflexivity|].
        right. apply IH; [exact L|]. exists n. auto.
    + rewrite IH by exact L. split.
      * intros [n [H1 H2]]. exists (S n). auto.
      * intros [[|n] [H1 H2]]; simpl in *; [discriminate|]. exists n. auto.
Qed.

Lemma where_true_perm plist : forall b, length b = length plist ->
  Permutation (where_true plist b ++ where_true plist (map negb b)) plist.
Proof.
  induction plist as [|j plist IH]; intros [|c b] L; simpl in L; try discriminate; [constructor|].
  injection L as L. destruct c; simpl.
  - constructor. apply IH, L.
  - symmetry. etransitivity; [constructor; symmetry; apply (IH b L)|]. apply Permutation_middle.
Qed.

(** being part of a list in the same order *)
Inductive sublist {A} : list A -> list A -> Prop :=
| sl_nil : sublist [] []
| sl_keep x a b : sublist a b -> sublist (x :: a) (x :: b)
| sl_skip x a b : sublist a b -> sublist a (x :: b).

Lemma where_true_sub plist : forall b, length b = length plist -> sublist (where_true plist b) plist.
Proof.
  induction plist as [|j plist IH]; intros [|c b] L; simpl in L; try discriminate; [constructor|].
  injection L as L. destruct c; simpl; constructor; apply IH, L.
Qed.

Lemma sublist_In {A} (a b : list A) x : sublist a b -> In x a -> In x b.
Proof. intros H. induction H; simpl; tauto. Qed.

Lemma sublist_NoDup {A} (a b : list A) : sublist a b -> NoDup b -> NoDup a.
Proof.
  intros H. induction H; intros N; [constructor| |].
  - inversion N; subst. constructor; [|apply IHsublist; assumption].
    intros F. apply H2. eapply sublist_In; eassumption.
  - inversion N; subst. apply IHsublist; assumption.
Qed.

Lemma land_loop xd m : (forall n, n < length xd -> exists z, nth_error xd n = Some (I z)) ->
  exists b, fold_right (fun c acc =>
      match acc, c with
      | Some l, I z => Some (negb (Z.land z m =? 0)%Z :: l)
      | _, _ => None
      end) (Some []) xd = Some b /\ length b = length xd /\
    forall n z, nth_error xd n = Some (I z) -> nth_error b n = Some (negb (Z.land z m =? 0)%Z).
Proof.
  induction xd as [|c xd IH]; intros H.
  - exists []. repeat split. intros n z E. destruct n; discriminate.
  - destruct IH as [b [E [L Hb]]].
    { intros n Hn. apply (H (S n)). simpl. lia. }
    destruct (H 0) as [z Ez]; [simpl; lia|]. simpl in Ez. injection Ez as ->.
    simpl. rewrite E. eexists. split; [reflexivity|]. split; [simpl; lia|].
    intros [|n] z' Hz; simpl in *; [injection Hz as <-; reflexivity|]. apply Hb, Hz.
Qed.

Lemma negb_iff b c : negb b = c <-> b = negb c.
Proof. destruct b, c; simpl; split; intros; congruence. Qed.

Section Branch.
Context (xdata : list (list cell)) (d : nat) (s : option R) (m : option Z).
Context (Hd : forall row, In row xdata -> d < length row).
Context (Hsm : match s, m with
      | Some _, _ => True
      | None, Some m => (2 <= m)%Z -> forall row, In row xdata -> exists z, nth_error row d = Some (I z)
      | None, None => False
      end).

Lemma cmp_spec plist xd : plist <> [] -> Forall (fun i => i < length xdata) plist ->
  column xdata d plist = Some xd ->
  exists b, cmp s m xd = Some b /\ length b = length plist /\
    forall n i, nth_error plist n = Some i ->
      (nth_error b n = Some true <-> goes_left xdata d s m (fun j => In j plist) i).
Proof.
  intros Ne Fo Ex. destruct (column_some xdata d plist Hd Fo) as [xd' [E [L Hx]]].
  rewrite Ex in E. injection E as <-.
  assert (Hv : forall n i, nth_error plist n = Some i -> nth_error (map num xd) n = Some (value_at xdata i d)).
  { intros n i Hn. destruct (Hx n i Hn) as [H1 H2]. unfold value_at.
    destruct (cell_at xdata i d) as [c|]; [|congruence]. apply map_nth_error. exact H1. }
  assert (Hin : forall o, In o (map num xd) <-> exists i, In i plist /\ value_at xdata i d = o).
  { intros o. split.
    - intros H. apply In_nth_error in H. destruct H as [n Hn].
      assert (n < length plist) as Ln.
      { rewrite <- L, <- (map_length num). apply nth_error_Some. congruence. }
      destruct (nth_error plist n) as [i|] eqn:Ei; [|apply nth_error_None in Ei; lia].
      exists i. split; [eapply nth_error_In; eassumption|]. pose proof (Hv n i Ei). congruence.
    - intros [i [H1 H2]]. apply In_nth_error in H1. destruct H1 as [n Hn].
      pose proof (Hv n i Hn) as H. rewrite H2 in H. eapply nth_error_In; eassumption. }
  unfold cmp, goes_left. destruct s as [sp|].
  - set (v := map num xd) in *. clear m Hsm.
    eexists. split; [reflexivity|]. split; [rewrite map_length; unfold v; rewrite map_length; exact L|].
    intros n i Hn. rewrite (map_nth_error _ _ _ (Hv n i Hn)).
    assert (Nv : v <> []).
    { intros F. destruct plist; [congruence|]. apply (f_equal (@length _)) in F.
      unfold v in F. rewrite map_length, L in F. discriminate. }
    destruct (classic (In None v)) as [Hnan|Hnan].
    + rewrite !(extreme_nan _ v Hnan). simpl lift2.
      apply Hin in Hnan. destruct Hnan as [j [Hj Vj]].
      split.
      * intros E. left. split; [exists j; auto|].
        destruct (Rlt_dec sp (1/2)) as [Q|Q]; [|lra].
        destruct (value_at xdata i d); simpl in E; discriminate E.
      * intros [[_ Q]|[mn [mx [w [A _]]]]].
        -- destruct (Rlt_dec sp (1/2)); [lra|]. destruct (value_at xdata i d); reflexivity.
        -- destruct (A j Hj) as [x [B _]]. congruence.
    + destruct (extreme_min v Nv Hnan) as [mn [E1 [I1 H1]]].
      destruct (extreme_max v Nv Hnan) as [mx [E2 [I2 H2]]].
      rewrite E1, E2. simpl lift2.
      destruct (value_at xdata i d) as [x|] eqn:Ev.
      2:{ exfalso. apply Hnan. eapply nth_error_In. rewrite <- Ev. apply Hv, Hn. }
      assert (Dec : (if Rlt_dec sp (1/2) then gt (Some x) (Some (mn + (mx - mn) * sp)%R)
                     else negb (le (Some x) (Some (mn + (mx - mn) * sp)%R))) = true
                    <-> (mn + (mx - mn) * sp < x)%R).
      { simpl. destruct (Rlt_dec sp (1/2)).
        - destruct (Rlt_dec _ x); split; intros; try assumption; try reflexivity; try discriminate; contradiction.
        - destruct (Rle_dec x _); simpl; split; intros; try reflexivity; try discriminate; lra. }
      split.
      * intros E. injection E as E. apply Dec in E. right. exists mn, mx, x.
        split; [|split; [apply Hin, I1|split; [apply Hin, I2|auto]]].
        intros j Hj. destruct (value_at xdata j d) as [y|] eqn:Ey.
        -- exists y. split; [reflexivity|]. assert (In (Some y) v) by (apply Hin; exists j; auto). auto.
        -- exfalso. apply Hnan, Hin. exists j. auto.
      * intros [[[j [Hj Vj]] _]|[mn' [mx' [w [A [[i1 [B1 B2]] [[i2 [C1 C2]] [Vw Q]]]]]]]].
        -- exfalso. apply Hnan, Hin. exists j. auto.
        -- apply f_equal, Dec. injection Vw as <-.
           assert (mn' = mn) as ->.
           { apply Rle_antisym.
             - apply Hin in I1. destruct I1 as [k [K1 K2]]. destruct (A k K1) as [y [Y1 Y2]].
               rewrite K2 in Y1. injection Y1 as <-. apply Y2.
             - apply H1, Hin. exists i1. auto. }
           assert (mx' = mx) as ->.
           { apply Rle_antisym.
             - apply H2, Hin. exists i2. auto.
             - apply Hin in I2. destruct I2 as [k [K1 K2]]. destruct (A k K1) as [y [Y1 Y2]].
               rewrite K2 in Y1. injection Y1 as <-. apply Y2. }
           exact Q.
  - destruct m as [mk|]; [|contradiction]. destruct (2 <=? mk)%Z eqn:E2.
    + apply Z.leb_le in E2.
      assert (Hz : forall n i, nth_error plist n = Some i -> exists z, nth_error xd n = Some (I z) /\ cell_at xdata i d = Some (I z)).
      { intros n i Hn. destruct (Hx n i Hn) as [H1 H2]. unfold cell_at in *.
        destruct (nth_error xdata i) as [row|] eqn:Er; [|congruence].
        destruct (Hsm E2 row (nth_error_In _ _ Er)) as [z Ez]. exists z. rewrite H1. auto. }
      destruct (land_loop xd mk) as [b [Eb [Lb Hb]]].
      { intros n Hn. destruct (nth_error plist n) as [i|] eqn:Ei; [|apply nth_error_None in Ei; lia].
        destruct (Hz n i Ei) as [z [Z1 _]]. eauto. }
      exists b. split; [exact Eb|]. split; [lia|]. intros n i Hn. destruct (Hz n i Hn) as [z [Z1 Z2]].
      rewrite (Hb n z Z1). split.
      * intros E. injection E as E. exists z. split; [exact Z2|].
        apply negb_true_iff, Z.eqb_neq in E. exact E.
      * intros [z' [Y1 Y2]]. rewrite Z2 in Y1. injection Y1 as <-.
        apply f_equal, negb_true_iff, Z.eqb_neq, Y2.
    + eexists. split; [reflexivity|]. split; [rewrite map_length; exact L|].
      intros n i Hn. destruct (Hx n i Hn) as [H1 H2]. unfold value_at.
      destruct (cell_at xdata i d) as [c|]; [|congruence].
      rewrite (map_nth_error _ _ _ H1). destruct (num c) as [x|].
      * destruct (Req_EM_T x (IZR mk)) as [->|Q]; split; intros; try reflexivity; try discriminate; congruence.
      * split; discriminate.
Qed.

Lemma partition_spec plist : Forall (fun i => i < length xdata) plist ->
  exists pl1 pl2, partitionList xdata d s m plist = Some (pl1, pl2) /\
    Permutation (pl1 ++ pl2) plist /\ sublist pl1 plist /\ sublist pl2 plist /\
    forall i, (In i pl1 <-> In i plist /\ goes_left xdata d s m (fun j => In j plist) i) /\
              (In i pl2 <-> In i plist /\ ~ goes_left xdata d s m (fun j => In j plist) i).
Proof.
  intros Fo. destruct plist as [|i0 plist0].
  - exists [], []. split; [reflexivity|]. split; [constructor|]. split; [constructor|]. split; [constructor|].
    intros i. split; simpl; tauto.
  - assert (Ne : i0 :: plist0 <> []) by discriminate. unfold partitionList.
    remember (i0 :: plist0) as plist eqn:Q. clear Q i0 plist0.
    destruct (column_some xdata d plist Hd Fo) as [xd [E [L Hx]]].
    destruct (cmp_spec plist xd Ne Fo E) as [b [Eb [Lb Hb]]].
    exists (where_true plist b), (where_true plist (map negb b)).
    split; [destruct plist; [congruence|]; rewrite E, Eb; reflexivity|].
    split; [apply where_true_perm, Lb|].
    split; [apply where_true_sub, Lb|].
    split; [apply where_true_sub; rewrite map_length; exact Lb|].
    assert (Lb' : length (map negb b) = length plist) by (rewrite map_length; exact Lb).
    intros i. split.
    + rewrite where_true_In by exact Lb. split.
      * intros [n [H1 H2]]. split; [eapply nth_error_In; eassumption|]. apply (Hb n i H1), H2.
      * intros [H1 H2]. apply In_nth_error in H1. destruct H1 as [n Hn]. exists n. split; [exact Hn|].
        apply (Hb n i Hn), H2.
    + rewrite where_true_In by exact Lb'.
      assert (Hnb : forall n, n < length plist -> nth_error (map negb b) n = Some true <-> nth_error b n <> Some true).
      { intros n Hn. destruct (nth_error b n) as [c|] eqn:Ec; [|apply nth_error_None in Ec; lia].
        rewrite (map_nth_error _ _ _ Ec). destruct c; simpl; split; congruence. }
      split.
      * intros [n [H1 H2]]. split; [eapply nth_error_In; eassumption|].
        apply Hnb in H2; [|apply nth_error_Some; congruence]. intros G. apply H2, (Hb n i H1), G.
      * intros [H1 H2]. apply In_nth_error in H1. destruct H1 as [n Hn]. exists n. split; [exact Hn|].
        apply Hnb; [apply nth_error_Some; congruence|]. intros G. apply H2, (Hb n i Hn), G.
Qed.
End Branch.

(** ** leafs *)
Lemma goes_left_ext xdata d s m P Q i : (forall j, P j <-> Q j) ->
  goes_left xdata d s m P i <-> goes_left xdata d s m Q i.
Proof.
  intros E.
  assert (G : forall P Q : nat -> Prop, (forall j, P j <-> Q j) ->
              goes_left xdata d s m P i -> goes_left xdata d s m Q i).
  { clear. intros P Q E. unfold goes_left. destruct s; [|exact (fun H => H)].
    intros [[[j [A B]] C]|[mn [mx [v [A [[i1 [B1 B2]] [[i2 [C1 C2]] D]]]]]]].
    - left. split; [exists j; split; [apply E, A|exact B]|exact C].
    - right. exists mn, mx, v. split; [intros j Hj; apply A, E, Hj|].
      split; [exists i1; split; [apply E, B1|exact B2]|].
      split; [exists i2; split; [apply E, C1|exact C2]|exact D]. }
  split; apply G; [exact E|]. intros j. split; apply E.
Qed.

Lemma in_leaf_ext t xdata : forall P Q k i, (forall j, P j <-> Q j) ->
  in_leaf t xdata P k i <-> in_leaf t xdata Q k i.
Proof.
  induction t as [mk|d s m l IHl r IHr]; intros P Q k i E; simpl.
  - rewrite E. tauto.
  - rewrite (IHl (fun j => P j /\ goes_left xdata d s m P j) (fun j => Q j /\ goes_left xdata d s m Q j)).
    rewrite (IHr (fun j => P j /\ ~ goes_left xdata d s m P j) (fun j => Q j /\ ~ goes_left xdata d s m Q j)).
    + tauto.
    + intros j. rewrite (goes_left_ext xdata d s m P Q j E), E. tauto.
    + intros j. rewrite (goes_left_ext xdata d s m P Q j E), E. tauto.
Qed.

Lemma in_leaf_In t xdata : forall (P : nat -> Prop) k i, in_leaf t xdata P k i -> P i /\ k < leaves t.
Proof.
  induction t as [mk|d s m l IHl r IHr]; intros P k i H; simpl in *.
  - destruct H as [-> H]. split; [exact H|lia].
  - destruct H as [[H1 H]|[H1 H]].
    + apply IHl in H. split; [apply H|lia].
    + apply IHr in H. split; [apply H|lia].
Qed.

Lemma in_leaf_unique t xdata : forall P k k' i, in_leaf t xdata P k i -> in_leaf t xdata P k' i -> k = k'.
Proof.
  induction t as [mk|d s m l IHl r IHr]; intros P k k' i H H'; simpl in *.
  - lia.
  - destruct H as [[H1 H]|[H1 H]], H' as [[H1' H']|[H1' H']].
    + eapply IHl; eassumption.
    + apply in_leaf_In in H. apply in_leaf_In in H'. tauto.
    + apply in_leaf_In in H. apply in_leaf_In in H'. tauto.
    + assert (k - leaves l = k' - leaves l) by (eapply IHr; eassumption). lia.
Qed.

Lemma in_leaf_exists t xdata : forall (P : nat -> Prop) (i : nat), P i -> exists k, in_leaf t xdata P k i.
Proof.
  induction t as [mk|d s m l IHl r IHr]; intros P i H.
  - exists 0. simpl. auto.
  - destruct (classic (goes_left xdata d s m P i)) as [G|G].
    + destruct (IHl (fun j => P j /\ goes_left xdata d s m P j) i (conj H G)) as [k Hk].
      exists k. simpl. left. split; [apply in_leaf_In in Hk; apply Hk|exact Hk].
    + destruct (IHr (fun j => P j /\ ~ goes_left xdata d s m P j) i (conj H G)) as [k Hk].
      exists (leaves l + k). simpl. right. split; [lia|].
      replace (leaves l + k - leaves l) with k by lia. exact Hk.
Qed.

(** ** result *)
Lemma set_all_length {A} pl (v : A) : forall res, length (set_all pl v res) = length res.
Proof.
  unfold set_all. induction pl as [|i pl IH]; intros res; [reflexivity|]. simpl. rewrite IH. apply upd_length.
Qed.
Lemma set_all_other {A} pl (v : A) : forall res i, ~ In i pl -> nth_error (set_all pl v res) i = nth_error res i.
Proof.
  unfold set_all. induction pl as [|j pl IH]; intros res i H; [reflexivity|]. simpl. rewrite IH.
  - apply upd_nth_other. intros ->. apply H. left. reflexivity.
  - intros F. apply H. right. exact F.
Qed.
Lemma set_all_same {A} pl (v : A) : forall res i, In i pl -> i < length res ->
  nth_error (set_all pl v res) i = Some v.
Proof.
  unfold set_all. induction pl as [|j pl IH]; intros res i H L; [contradiction|]. simpl.
  destruct (in_dec Nat.eq_dec i pl) as [Q|Q].
  - apply IH; [exact Q|]. rewrite upd_length. exact L.
  - destruct H as [->|H]; [|contradiction].
    pose proof (set_all_other pl v (upd i v res) i Q) as E. unfold set_all in E. rewrite E.
    apply upd_nth_same, L.
Qed.

Lemma result_spec t xdata params : fits t xdata ->
  forall kpar plist res, Forall (fun i => i < length xdata) plist -> length res = length xdata ->
  kpar + leaves t <= length params ->
  exists res', recursiveResult t xdata params kpar plist res = Some (res', kpar + leaves t) /\
    length res' = length res /\
    (forall i, ~ In i plist -> nth_error res' i = nth_error res i) /\
    (forall i k, in_leaf t xdata (fun j => In j plist) k i -> nth_error res' i = nth_error params (kpar + k)).
Proof.
  induction t as [mk|d s m l IHl r IHr]; intros Hf kpar plist res Fo L Lp; simpl in *.
  - destruct (nth_error params kpar) as [p|] eqn:E; [|apply nth_error_None in E; lia].
    exists (set_all plist p res). split; [do 2 f_equal; lia|].
    split; [apply set_all_length|]. split; [apply set_all_other|].
    intros i k [-> H]. rewrite Nat.add_0_r, E. apply set_all_same; [exact H|].
    rewrite L. rewrite Forall_forall in Fo. auto.
  - destruct Hf as [Hd [Hsm [Hl Hr]]].
    destruct (partition_spec xdata d s m Hd Hsm plist Fo) as [pl1 [pl2 [E [Pe [S1 [S2 HP]]]]]].
    rewrite E.
    assert (F1 : Forall (fun i => i < length xdata) pl1).
    { apply Forall_forall. intros i Hi. rewrite Forall_forall in Fo. apply Fo, (sublist_In _ _ _ S1 Hi). }
    assert (F2 : Forall (fun i => i < length xdata) pl2).
    { apply Forall_forall. intros i Hi. rewrite Forall_forall in Fo. apply Fo, (sublist_In _ _ _ S2 Hi). }
    destruct (IHl Hl kpar pl1 res F1 L) as [res1 [E1 [L1 [O1 A1]]]]; [lia|]. rewrite E1.
    destruct (IHr Hr (kpar + leaves l) pl2 res1 F2) as [res2 [E2 [L2 [O2 A2]]]]; [congruence|lia|].
    rewrite E2. exists res2. split; [do 2 f_equal; lia|]. split; [congruence|]. split.
    + intros i Hi. rewrite O2, O1; [reflexivity| |]; intros F; apply Hi; first [exact (sublist_In _ _ _ S1 F)|exact (sublist_In _ _ _ S2 F)].
    + intros i k [[Hk Hi]|[Hk Hi]].
      * assert (Hi' : in_leaf l xdata (fun j => In j pl1) k i).
        { eapply in_leaf_ext; [|exact Hi]. intros j. simpl. apply HP. }
        rewrite O2; [apply A1, Hi'|]. intros F. apply HP in F. apply in_leaf_In in Hi. tauto.
      * assert (Hi' : in_leaf r xdata (fun j => In j pl2) (k - leaves l) i).
        { eapply in_leaf_ext; [|exact Hi]. intros j. simpl. apply HP. }
        rewrite (A2 _ _ Hi'). f_equal. lia.
Qed.

(** ** partial *)
Lemma set_col_length pl k : forall part, length (set_col pl k part) = length part.
Proof.
  unfold set_col. induction pl as [|i pl IH]; intros part; [reflexivity|]. simpl. rewrite IH. apply upd_length.
Qed.
Lemma set_col_other pl k : forall part i, ~ In i pl -> nth_error (set_col pl k part) i = nth_error part i.
Proof.
  unfold set_col. induction pl as [|j pl IH]; intros part i H; [reflexivity|]. simpl. rewrite IH.
  - apply upd_nth_other. intros ->. apply H. left. reflexivity.
  - intros F. apply H. right. exact F.
Qed.
Lemma upd_upd {A} k (x : A) l : upd k x (upd k x l) = upd k x l.
Proof. revert k. induction l as [|y l IH]; intros [|k]; simpl; try reflexivity. rewrite IH. reflexivity. Qed.

Lemma set_col_same pl k : forall part i row, In i pl -> nth_error part i = Some row ->
  nth_error (set_col pl k part) i = Some (upd k 1%R row).
Proof.
  unfold set_col. induction pl as [|j pl IH]; intros part i row H E; [contradiction|]. simpl.
  assert (Li : i < length part) by (apply nth_error_Some; congruence).
  destruct (Nat.eq_dec j i) as [->|Nj].
  - rewrite (nth_error_nth _ _ _ E).
    destruct (in_dec Nat.eq_dec i pl) as [Q|Q].
    + rewrite (IH _ i (upd k 1%R row) Q); [rewrite upd_upd; reflexivity|]. apply upd_nth_same, Li.
    + pose proof (set_col_other pl k (upd i (upd k 1%R row) part) i Q) as O. unfold set_col in O.
      rewrite O. apply upd_nth_same, Li.
  - destruct H as [->|H]; [congruence|]. apply IH; [exact H|]. rewrite upd_nth_other; assumption.
Qed.

Lemma partial_spec np t xdata : fits t xdata ->
  forall kpar plist part, Forall (fun i => i < length xdata) plist -> length part = length xdata ->
  kpar + leaves t <= np ->
  exists part', recursivePartial np t xdata kpar plist part = Some (part', kpar + leaves t) /\
    length part' = length part /\
    (forall i, ~ In i plist -> nth_error part' i = nth_error part i) /\
    (forall i k row, in_leaf t xdata (fun j => In j plist) k i -> nth_error part i = Some row ->
       nth_error part' i = Some (upd (kpar + k) 1%R row)).
Proof.
  induction t as [mk|d s m l IHl r IHr]; intros Hf kpar plist part Fo L Lp; simpl in *.
  - destruct (kpar <? np) eqn:Ek; [|apply Nat.ltb_ge in Ek; lia].
    exists (set_col plist kpar part). split; [do 2 f_equal; lia|].
    split; [apply set_col_length|]. split; [apply set_col_other|].
    intros i k row [-> H] E. rewrite Nat.add_0_r. apply set_col_same; assumption.
  - destruct Hf as [Hd [Hsm [Hl Hr]]].
    destruct (partition_spec xdata d s m Hd Hsm plist Fo) as [pl1 [pl2 [E [Pe [S1 [S2 HP]]]]]].
    rewrite E.
    assert (F1 : Forall (fun i => i < length xdata) pl1).
    { apply Forall_forall. intros i Hi. rewrite Forall_forall in Fo. apply Fo, (sublist_In _ _ _ S1 Hi). }
    assert (F2 : Forall (fun i => i < length xdata) pl2).
    { apply Forall_forall. intros i Hi. rewrite Forall_forall in Fo. apply Fo, (sublist_In _ _ _ S2 Hi). }
    destruct (IHl Hl kpar pl1 part F1 L) as [res1 [E1 [L1 [O1 A1]]]]; [lia|]. rewrite E1.
    destruct (IHr Hr (kpar + leaves l) pl2 res1 F2) as [res2 [E2 [L2 [O2 A2]]]]; [congruence|lia|].
    rewrite E2. exists res2. split; [do 2 f_equal; lia|]. split; [congruence|]. split.
    + intros i Hi. rewrite O2, O1; [reflexivity| |]; intros F; apply Hi; first [exact (sublist_In _ _ _ S1 F)|exact (sublist_In _ _ _ S2 F)].
    + intros i k row [[Hk Hi]|[Hk Hi]] Er.
      * assert (Hi' : in_leaf l xdata (fun j => In j pl1) k i).
        { eapply in_leaf_ext; [|exact Hi]. intros j. simpl. apply HP. }
        rewrite O2; [apply A1; assumption|]. intros F. apply HP in F. apply in_leaf_In in Hi. tauto.
      * assert (Hi' : in_leaf r xdata (fun j => In j pl2) (k - leaves l) i).
        { eapply in_leaf_ext; [|exact Hi]. intros j. simpl. apply HP. }
        rewrite (A2 _ _ row Hi'); [do 2 f_equal; lia|]. rewrite O1; [exact Er|].
        intros F. apply HP in F. apply in_leaf_In in Hi. tauto.
Qed.

(** ** order *)
Lemma order_spec t xdata : fits t xdata ->
  forall plist, Forall (fun i => i < length xdata) plist ->
  exists o, recursiveOrder t xdata plist = Some o /\ Permutation o plist /\
    (forall n n' i i' k k', n < n' -> nth_error o n = Some i -> nth_error o n' = Some i' ->
      in_leaf t xdata (fun j => In j plist) k i -> in_leaf t xdata (fun j => In j plist) k' i' -> k <= k').
Proof.
  induction t as [mk|d s m l IHl r IHr]; intros Hf plist Fo; simpl in *.
  - exists plist. split; [reflexivity|]. split; [reflexivity|]. intros. lia.
  - destruct Hf as [Hd [Hsm [Hl Hr]]].
    destruct (partition_spec xdata d s m Hd Hsm plist Fo) as [pl1 [pl2 [E [Pe [S1 [S2 HP]]]]]].
    rewrite E.
    assert (F1 : Forall (fun i => i < length xdata) pl1).
    { apply Forall_forall. intros i Hi. rewrite Forall_forall in Fo. apply Fo, (sublist_In _ _ _ S1 Hi). }
    assert (F2 : Forall (fun i => i < length xdata) pl2).
    { apply Forall_forall. intros i Hi. rewrite Forall_forall in Fo. apply Fo, (sublist_In _ _ _ S2 Hi). }
    destruct (IHl Hl pl1 F1) as [o1 [E1 [P1 A1]]]. destruct (IHr Hr pl2 F2) as [o2 [E2 [P2 A2]]].
    rewrite E1, E2. exists (o1 ++ o2). split; [reflexivity|].
    split; [rewrite P1, P2; exact Pe|].
    assert (X1 : forall k i, in_leaf l xdata (fun j => In j plist /\ goes_left xdata d s m (fun j => In j plist) j) k i
                 <-> in_leaf l xdata (fun j => In j pl1) k i).
    { intros k i. apply in_leaf_ext. intros j. symmetry. apply HP. }
    assert (X2 : forall k i, in_leaf r xdata (fun j => In j plist /\ ~ goes_left xdata d s m (fun j => In j plist) j) k i
                 <-> in_leaf r xdata (fun j => In j pl2) k i).
    { intros k i. apply in_leaf_ext. intros j. symmetry. apply HP. }
    assert (Dis : forall i, In i pl1 -> In i pl2 -> False).
    { intros i H1 H2. apply HP in H1. apply HP in H2. tauto. }
    intros n n' i i' k k' Hn Ei Ei' Hk Hk'. rewrite !X1, !X2 in Hk, Hk'.
    destruct (Nat.lt_ge_cases n (length o1)) as [Q|Q].
    + rewrite nth_error_app1 in Ei by exact Q.
      assert (I1 : In i pl1) by (apply (Permutation_in _ P1); eapply nth_error_In; eassumption).
      destruct Hk as [[B Hk]|[B Hk]]; [|apply in_leaf_In in Hk; exfalso; eapply Dis; [exact I1|apply Hk]].
      destruct Hk' as [[B' Hk']|[B' Hk']]; [|lia].
      assert (I1' : In i' pl1) by (apply in_leaf_In in Hk'; apply Hk').
      destruct (Nat.lt_ge_cases n' (length o1)) as [Q'|Q'].
      * rewrite nth_error_app1 in Ei' by exact Q'. exact (A1 _ _ _ _ _ _ Hn Ei Ei' Hk Hk').
      * rewrite nth_error_app2 in Ei' by exact Q'. exfalso. eapply Dis; [exact I1'|].
        apply (Permutation_in _ P2). eapply nth_error_In; eassumption.
    + rewrite nth_error_app2 in Ei by exact Q. rewrite nth_error_app2 in Ei' by lia.
      assert (I2 : In i pl2) by (apply (Permutation_in _ P2); eapply nth_error_In; eassumption).
      assert (I2' : In i' pl2) by (apply (Permutation_in _ P2); eapply nth_error_In; eassumption).
      destruct Hk as [[B Hk]|[B Hk]]; [apply in_leaf_In in Hk; exfalso; eapply Dis; [apply Hk|exact I2]|].
      destruct Hk' as [[B' Hk']|[B' Hk']]; [apply in_leaf_In in Hk'; exfalso; eapply Dis; [apply Hk'|exact I2']|].
      enough (k - leaves l <= k' - leaves l) by lia.
      refine (A2 _ _ _ _ _ _ _ Ei Ei' Hk Hk'). lia.
Qed.

Lemma seq_lt n : Forall (fun i => i < n) (seq 0 n).
Proof. apply Forall_forall. intros i H. apply in_seq in H. lia. Qed.

Lemma in_leaf_rows t xdata k i : in_leaf t xdata (fun j => In j (seq 0 (length xdata))) k i
  <-> in_leaf t xdata (all_rows xdata) k i.
Proof. apply in_leaf_ext. intros j. rewrite in_seq. unfold all_rows. lia. Qed.

Lemma base_result t xdata params : fits t xdata -> length params = leaves t ->
  exists y, baseResult t xdata params = Some y /\ length y = length xdata /\
    forall i k, in_leaf t xdata (all_rows xdata) k i -> nth_error y i = nth_error params k.
Proof.
  intros Hf L. unfold baseResult. destruct t as [mk|d s m l r].
  - destruct params as [|p [|]]; try discriminate. eexists. split; [reflexivity|].
    split; [apply repeat_length|]. intros i k [-> H]. simpl. apply nth_error_repeat, H.
  - destruct (result_spec _ xdata params Hf 0 (seq 0 (length xdata)) (repeat 0%R (length xdata)))
      as [y [E [Ly [_ A]]]]; [apply seq_lt|apply repeat_length|lia|].
    exists y. rewrite E. split; [reflexivity|]. split; [rewrite Ly; apply repeat_length|].
    intros i k H. apply in_leaf_rows in H. apply (A i k H).
Qed.

Lemma base_partial t xdata : fits t xdata ->
  exists part, basePartial t (leaves t) xdata None = Some part /\ length part = length xdata /\
    forall i k, in_leaf t xdata (all_rows xdata) k i ->
      nth_error part i = Some (upd k 1%R (repeat 0%R (leaves t))).
Proof.
  intros Hf. unfold basePartial. destruct t as [mk|d s m l r].
  - eexists. split; [reflexivity|]. split; [apply repeat_length|]. intros i k [-> H].
    apply nth_error_repeat, H.
  - destruct (partial_spec (leaves (Node d s m l r)) _ xdata Hf 0 (seq 0 (length xdata))
       (repeat (repeat 0%R (leaves (Node d s m l r))) (length xdata))) as [y [E [Ly [_ A]]]];
      [apply seq_lt|apply repeat_length|apply Nat.le_refl|].
    exists y. rewrite E. split; [reflexivity|]. split; [rewrite Ly; apply repeat_length|].
    intros i k H. apply (A i k); [apply in_leaf_rows, H|].
    apply nth_error_repeat. apply in_leaf_In in H. apply H.
Qed.

Lemma partial_short np t xdata : fits t xdata ->
  forall kpar plist part, Forall (fun i => i < length xdata) plist -> length part = length xdata ->
  kpar <= np -> np < kpar + leaves t -> recursivePartial np t xdata kpar plist part = None.
Proof.
  induction t as [mk|d s m l IHl r IHr]; intros Hf kpar plist part Fo L Lo Lp; simpl in *.
  - destruct (kpar <? np) eqn:Ek; [apply Nat.ltb_lt in Ek; lia|reflexivity].
  - destruct Hf as [Hd [Hsm [Hl Hr]]].
    destruct (partition_spec xdata d s m Hd Hsm plist Fo) as [pl1 [pl2 [E [Pe [S1 [S2 HP]]]]]].
    rewrite E.
    assert (F1 : Forall (fun i => i < length xdata) pl1).
    { apply Forall_forall. intros i Hi. rewrite Forall_forall in Fo. apply Fo, (sublist_In _ _ _ S1 Hi). }
    assert (F2 : Forall (fun i => i < length xdata) pl2).
    { apply Forall_forall. intros i Hi. rewrite Forall_forall in Fo. apply Fo, (sublist_In _ _ _ S2 Hi). }
    destruct (Nat.le_gt_cases (kpar + leaves l) np) as [Q|Q].
    + destruct (partial_spec np l xdata Hl kpar pl1 part F1 L Q) as [res1 [E1 [L1 _]]]. rewrite E1.
      apply IHr; try assumption; lia.
    + rewrite IHl; try assumption. reflexivity.
Qed.
