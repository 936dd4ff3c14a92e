(** Proofs about the phantom bookkeeping. *)
From Coq Require Import List Arith ZArith Lia Bool Sorted Permutation.
From Verif Require Import M_Order M_Phantom S_Phantom.
Import ListNotations.

Definition pabove (low : level) (p : list Z * Z) : bool := lev_gt (Some (snd p)) low.
Definition psorted (l : list (list Z * Z)) : Prop :=
  StronglySorted (fun a b => (snd a <= snd b)%Z) l.

Lemma above_payload low w : above low w = pabove low (payload w).
Proof. reflexivity. Qed.

Lemma ordered_psorted ws : ordered ws <-> psorted (map payload ws).
Proof.
  unfold ordered, psorted. induction ws as [|w r IH]; simpl.
  - split; constructor.
  - split; intros H; inversion H as [|? ? H1 H2]; subst; constructor.
    + now apply IH.
    + rewrite Forall_map. exact H2.
    + now apply IH.
    + rewrite Forall_map in H2. exact H2.
Qed.

Lemma above_mono low a b : (wlogL a <= wlogL b)%Z -> above low a = true -> above low b = true.
Proof.
  unfold above, lev_gt. destruct low; auto. intros. apply Z.ltb_lt. apply Z.ltb_lt in H0. lia.
Qed.

(** In an ordered list firstIndex splits at the level. *)
Lemma first_above_split low ws : ordered ws ->
  firstn (first_above low ws) ws = filter (fun w => negb (above low w)) ws /\
  skipn (first_above low ws) ws = filter (above low) ws.
Proof.
  unfold ordered. induction 1 as [|w r H IH F]; simpl; auto.
  destruct (above low w) eqn:E; simpl.
  - assert (A : forall v, In v r -> above low v = true).
    { intros v Hv. rewrite Forall_forall in F. eapply above_mono; eauto. }
    clear - A. split.
    + symmetry. induction r as [|v r IH]; simpl; auto. rewrite (A v) by now left. simpl.
      apply IH. intros; apply A; now right.
    + f_equal. induction r as [|v r IH]; simpl; auto. rewrite (A v) by now left.
      f_equal. apply IH. intros; apply A; now right.
  - destruct IH as [I1 I2]. now rewrite I1, I2.
Qed.

Lemma map_filter_payload low ws :
  map payload (filter (above low) ws) = filter (pabove low) (map payload ws).
Proof.
  induction ws as [|w r IH]; simpl; auto. rewrite above_payload.
  destruct (pabove low (payload w)); simpl; now rewrite IH.
Qed.
Lemma map_filter_npayload low ws :
  map payload (filter (fun w => negb (above low w)) ws)
  = filter (fun p => negb (pabove low p)) (map payload ws).
Proof.
  induction ws as [|w r IH]; simpl; auto. rewrite above_payload.
  destruct (pabove low (payload w)); simpl; now rewrite IH.
Qed.

Lemma insert_items wl w :
  map payload (wl_items (fst (insertWalker wl w)))
  = map payload (firstn (first_above (Some (wlogL w)) (wl_items wl)) (wl_items wl))
    ++ payload w ::
    map payload (skipn (first_above (Some (wlogL w)) (wl_items wl)) (wl_items wl)).
Proof.
  unfold insertWalker, firstIndex. destruct wl as [c l]; cbn [wl_items wl_count].
  destruct l as [|v r]; [reflexivity|].
  set (k := first_above _ _). cbn [fst wl_items].
  set (hi := skipn k (v :: r)). set (lo := firstn k (v :: r)).
  assert (T : (if 0 <? length hi then [w] ++ hi else [w]) = w :: hi).
  { destruct hi; reflexivity. }
  rewrite T. destruct lo eqn:E.
  - reflexivity.
  - simpl. rewrite map_app. reflexivity.
Qed.

Lemma insert_payload wl w : ordered (wl_items wl) ->
  map payload (wl_items (fst (insertWalker wl w)))
  = filter (fun p => negb (pabove (Some (wlogL w)) p)) (map payload (wl_items wl))
    ++ payload w :: filter (pabove (Some (wlogL w))) (map payload (wl_items wl)).
Proof.
  intros H. rewrite insert_items.
  destruct (first_above_split (Some (wlogL w)) _ H) as [-> ->].
  now rewrite map_filter_payload, map_filter_npayload.
Qed.

Lemma crop_payload wl low : ordered (wl_items wl) ->
  map payload (wl_items (cropOnLow wl low)) = filter (pabove low) (map payload (wl_items wl)).
Proof.
  intros H. unfold cropOnLow, firstIndex. destruct wl as [c l]; cbn [wl_items] in *.
  destruct l as [|v r]; [reflexivity|].
  destruct (first_above_split low _ H) as [_ ->]. apply map_filter_payload.
Qed.

Lemma psorted_filter f l : psorted l -> psorted (filter f l).
Proof.
  unfold psorted. induction 1 as [|a l H IH F]; simpl; [constructor|].
  destruct (f a); auto. constructor; auto.
  rewrite Forall_forall in *. intros x Hx. apply filter_In in Hx. now apply F.
Qed.

Lemma psorted_app l1 l2 : psorted l1 -> psorted l2 ->
  (forall a b, In a l1 -> In b l2 -> (snd a <= snd b)%Z) -> psorted (l1 ++ l2).
Proof.
  unfold psorted. induction l1 as [|a l1 IH]; simpl; auto. intros H1 H2 H.
  inversion H1; subst. constructor.
  - apply IH; auto.
  - apply Forall_app. split; auto. apply Forall_forall. auto.
Qed.

Lemma psorted_insert p l : psorted l ->
  psorted (filter (fun q => negb (pabove (Some (snd p)) q)) l
           ++ p :: filter (pabove (Some (snd p))) l).
Proof.
  intros H. apply psorted_app.
  - now apply psorted_filter.
  - constructor. now apply psorted_filter.
    apply Forall_forall. intros q Hq. apply filter_In in Hq. destruct Hq as [_ Hq].
    unfold pabove, lev_gt in Hq. lia.
  - intros a b Ha Hb. apply filter_In in Ha. destruct Ha as [_ Ha].
    unfold pabove, lev_gt in Ha. destruct Hb as [<-|Hb]; [lia|].
    apply filter_In in Hb. destruct Hb as [_ Hb]. unfold pabove, lev_gt in Hb. lia.
Qed.

Lemma filter_split_perm {A} (f : A -> bool) l :
  Permutation l (filter (fun x => negb (f x)) l ++ filter f l).
Proof.
  induction l as [|a l IH]; simpl; auto. destruct (f a); simpl.
  - apply Permutation_cons_app. exact IH.
  - now constructor.
Qed.

Lemma in_filter_perm {A} (f : A -> bool) s l : Permutation s l -> Permutation (filter f s) (filter f l).
Proof.
  induction 1; cbn [filter]; auto.
  - destruct (f x); auto.
  - destruct (f x), (f y); try apply Permutation_refl. apply perm_swap.
  - eapply perm_trans; eauto.
Qed.

Definition at_level (v : Z) (p : list Z * Z) : bool := (snd p =? v)%Z.

Lemma filter_nil {A} (f : A -> bool) l : (forall x, In x l -> f x = false) -> filter f l = [].
Proof.
  induction l as [|a l IH]; simpl; auto. intros H. rewrite (H a) by now left. apply IH.
  intros; apply H; now right.
Qed.
Lemma filter_filter_id {A} (f g : A -> bool) l :
  (forall x, f x = true -> g x = true) -> filter f (filter g l) = filter f l.
Proof.
  intros H. induction l as [|a l IH]; simpl; auto.
  destruct (g a) eqn:G; simpl.
  - now rewrite IH.
  - destruct (f a) eqn:F; auto. apply H in F. congruence.
Qed.
Lemma filter_comm {A} (f g : A -> bool) l : filter f (filter g l) = filter g (filter f l).
Proof.
  induction l as [|a l IH]; simpl; auto.
  destruct (g a) eqn:G, (f a) eqn:F; simpl; rewrite ?G, ?F, ?IH; auto.
Qed.

(** Insertion puts the new entry after its equals. *)
Lemma insert_stable v p l :
  filter (at_level v) (filter (fun q => negb (pabove (Some (snd p)) q)) l
                       ++ p :: filter (pabove (Some (snd p))) l)
  = filter (at_level v) (l ++ [p]).
Proof.
  rewrite !filter_app. cbn [filter].
  destruct (Z.eqb_spec (snd p) v) as [E|E].
  - assert (Ep : at_level v p = true) by (unfold at_level; lia). rewrite Ep.
    rewrite (filter_filter_id (at_level v) (fun q => negb _)).
    2:{ intros x. unfold at_level, pabove, lev_gt. lia. }
    f_equal. f_equal. apply filter_nil. intros x Hx. apply filter_In in Hx.
    destruct Hx as [_ Hx]. unfold at_level. unfold pabove, lev_gt in Hx. lia.
  - assert (Ep : at_level v p = false) by (unfold at_level; lia). rewrite Ep.
    rewrite app_nil_r.
    destruct (Z_lt_le_dec (snd p) v).
    + rewrite (filter_nil _ (filter (fun q => negb _) l)).
      * simpl. apply filter_filter_id. unfold at_level, pabove, lev_gt. intros; lia.
      * intros x Hx. apply filter_In in Hx. destruct Hx as [_ Hx].
        unfold at_level. unfold pabove, lev_gt in Hx. lia.
    + rewrite (filter_nil (at_level v) (filter (pabove _) l)).
      * rewrite app_nil_r. apply filter_filter_id. unfold at_level, pabove, lev_gt. intros; lia.
      * intros x Hx. apply filter_In in Hx. destruct Hx as [_ Hx].
        unfold at_level. unfold pabove, lev_gt in Hx. lia.
Qed.

(** *** Histories of one list *)
Definition wl_step (l : wlist) (e : wl_event) : wlist :=
  match e with
  | WStore w => fst (insertWalker l w)
  | WCrop low => cropOnLow l low
  end.

Lemma survivors_store es w : survivors (es ++ [WStore w]) = survivors es ++ [payload w].
Proof.
  induction es as [|e es IH]; simpl; auto.
  destruct e; auto. rewrite forallb_app. simpl. rewrite andb_true_r.
  destruct (forallb _ es); simpl; now rewrite IH.
Qed.
Lemma survivors_crop es low :
  survivors (es ++ [WCrop low]) = filter (pabove low) (survivors es).
Proof.
  induction es as [|e es IH]; [reflexivity|]. cbn [app survivors].
  destruct e; auto. rewrite forallb_app. cbn [forallb]. rewrite andb_true_r.
  destruct (forallb _ es); cbn [andb].
  - cbn [filter]. change (pabove low (payload w)) with (lev_gt (Some (wlogL w)) low).
    destruct (lev_gt (Some (wlogL w)) low); now rewrite IH.
  - exact IH.
Qed.

Definition stable_sort_of (s l : list (list Z * Z)) : Prop :=
  psorted l /\ Permutation s l /\ (forall v, filter (at_level v) l = filter (at_level v) s).

Lemma wl_run_sorted es :
  stable_sort_of (survivors es) (map payload (wl_items (fold_left wl_step es empty_wlist))).
Proof.
  induction es as [|e es IH] using rev_ind.
  - split; [constructor|]. split; auto.
  - rewrite fold_left_app. cbn [fold_left].
    set (l := fold_left wl_step es empty_wlist) in *.
    destruct IH as (S & P & F).
    assert (O : ordered (wl_items l)) by now apply ordered_psorted.
    destruct e as [w|low]; cbn [wl_step].
    + rewrite survivors_store, insert_payload by auto.
      change (wlogL w) with (snd (payload w)). split; [|split].
      * now apply psorted_insert.
      * rewrite <- Permutation_cons_append.
        apply Permutation_cons_app. eapply perm_trans; [exact P|]. apply filter_split_perm.
      * intros v. rewrite insert_stable, !filter_app, F. reflexivity.
    + rewrite survivors_crop, crop_payload by auto. split; [|split].
      * now apply psorted_filter.
      * now apply in_filter_perm.
      * intros v. rewrite filter_comm, F. apply filter_comm.
Qed.

(** *** The box *)

Lemma zip_with_length f a b : length a = length b -> length (zip_with f a b) = length a.
Proof. revert b. induction a; destruct b; simpl; intros; auto; try lia. Qed.
Lemma zip_with_nth f a b k : length a = length b -> k < length a ->
  nth k (zip_with f a b) 0%Z = f (nth k a 0%Z) (nth k b 0%Z).
Proof.
  revert b k. induction a; destruct b; simpl; intros k H1 H2; try lia.
  destruct k; auto. apply IHa; lia.
Qed.

Section Fold.
  Variable n : nat.
  Variables (f : Z -> Z -> Z) (le : Z -> Z -> Prop).
  Hypothesis le_refl : forall x, le x x.
  Hypothesis le_trans : forall x y z, le x y -> le y z -> le x z.
  Hypothesis f_l : forall x y, le (f x y) x.
  Hypothesis f_r : forall x y, le (f x y) y.
  Hypothesis f_or : forall x y, f x y = x \/ f x y = y.

  Lemma zip_fold rs r : length r = n -> (forall q, In q rs -> length q = n) ->
    let m := fold_left (zip_with f) rs r in
    length m = n /\
    forall k, k < n ->
      (forall q, q = r \/ In q rs -> le (nth k m 0%Z) (nth k q 0%Z)) /\
      (exists q, (q = r \/ In q rs) /\ nth k q 0%Z = nth k m 0%Z).
  Proof.
    revert r. induction rs as [|q rs IH]; intros r Hr Hrs; cbn [fold_left].
    - split; auto. intros k Hk. split.
      + intros ? [->|[]]. apply le_refl.
      + exists r; auto.
    - assert (Hq : length q = n) by (apply Hrs; now left).
      specialize (IH (zip_with f r q)). cbn zeta in *.
      destruct IH as [L H].
      { now rewrite zip_with_length by congruence. }
      { intros; apply Hrs; now right. }
      split; auto. intros k Hk. destruct (H k Hk) as [H1 H2].
      assert (Z : nth k (zip_with f r q) 0%Z = f (nth k r 0%Z) (nth k q 0%Z)).
      { apply zip_with_nth; lia. }
      split.
      + intros p Hp. destruct Hp as [->|[->|Hp]].
        * eapply le_trans; [apply H1; now left|]. rewrite Z. apply f_l.
        * eapply le_trans; [apply H1; now left|]. rewrite Z. apply f_r.
        * apply H1. now right.
      + destruct H2 as (p & [->|Hp] & E).
        * rewrite Z in E. destruct (f_or (nth k r 0%Z) (nth k q 0%Z)) as [E'|E'];
            rewrite E' in E; [exists r|exists q]; split; auto. now right; left.
        * exists p; split; auto. now right; right.
  Qed.
End Fold.

Lemma fold_max_same n (ws : list pwalker) : ws <> [] -> (forall w, In w ws -> length (wpars w) = n) ->
  fold_right Nat.max 0 (map (fun w => length (wpars w)) ws) = n.
Proof.
  induction ws as [|w r IH]; [congruence|]. intros _ H. simpl.
  rewrite (H w) by now left. destruct r as [|v r].
  - simpl. lia.
  - rewrite IH; [lia|congruence|]. intros; apply H; now right.
Qed.

Lemma allPars_same n (ws : list pwalker) : (forall w, In w ws -> length (wpars w) = n) ->
  allPars ws = map wpars ws.
Proof.
  intros H. unfold allPars. destruct ws as [|w r]; [reflexivity|].
  rewrite (fold_max_same n) by (congruence || auto).
  apply map_ext_in. intros v Hv. unfold pad. rewrite (H v Hv), Nat.sub_diag. apply app_nil_r.
Qed.

Lemma boxOf_tight mp n (ws : list pwalker) : (forall w, In w ws -> length (wpars w) = n) -> mp < length ws ->
  exists lo hi, boxOf mp ws = Some (lo, hi) /\ tight_box n (map wpars ws) lo hi.
Proof.
  intros H L. unfold boxOf.
  assert (E : (length ws <=? mp) = false) by (apply Nat.leb_gt; exact L). rewrite E.
  rewrite (allPars_same n) by auto.
  destruct ws as [|w r]; [simpl in L; lia|]. cbn [map column_fold].
  assert (A1 : length (wpars w) = n) by (apply H; now left).
  assert (A2 : forall q, In q (map wpars r) -> length q = n).
  { intros q Hq. apply in_map_iff in Hq. destruct Hq as (v & <- & Hv). apply H. now right. }
  destruct (zip_fold n Z.min Z.le) with (rs := map wpars r) (r := wpars w) as [L1 B1];
    auto; try (intros; lia).
  destruct (zip_fold n Z.max Z.ge) with (rs := map wpars r) (r := wpars w) as [L2 B2];
    auto; try (intros; lia).
  eexists _, _. split; [reflexivity|]. split; [exact L1|]. split; [exact L2|]. split.
  - intros q k Hq Hk. destruct (B1 k Hk) as [M1 _]. destruct (B2 k Hk) as [M2 _].
    assert (Hq' : q = wpars w \/ In q (map wpars r)) by (destruct Hq; auto).
    specialize (M1 q Hq'). specialize (M2 q Hq'). lia.
  - intros k Hk. destruct (B1 k Hk) as [_ (q1 & Q1 & E1)]. destruct (B2 k Hk) as [_ (q2 & Q2 & E2)].
    split; [exists q1|exists q2]; split; auto; destruct Q1, Q2; subst; simpl; auto.
Qed.

Lemma boxOf_none mp (ws : list pwalker) : length ws <= mp -> boxOf mp ws = None.
Proof. intros H. unfold boxOf. apply Nat.leb_le in H. now rewrite H. Qed.

(** *** Static collection as a list history *)

(** The limits that actually recomputed the box. *)
Fixpoint crops (low : level) (es : list pevent) : list wl_event :=
  match es with
  | [] => []
  | PStore w :: r => WStore w :: crops low r
  | PGet l :: r => if lev_gt l low then WCrop l :: crops l r else crops low r
  end.

Lemma pc_list_history es : forall c,
  pc_list (fold_left pc_step es c) = fold_left wl_step (crops (pc_low c) es) (pc_list c).
Proof.
  induction es as [|e es IH]; intros c; cbn [fold_left]; auto.
  rewrite IH. destruct e as [w|l]; cbn [pc_step crops].
  - unfold storeItems. destruct (insertWalker (pc_list c) w) as [l' id] eqn:E. simpl.
    rewrite E. reflexivity.
  - unfold getParamMinmax. destruct (lev_gt l (pc_low c)) eqn:E; cbn [fst]; reflexivity.
Qed.

Definition lev_le (a b : level) : Prop := lev_gt a b = false.
Lemma lev_gt_trans a b c : lev_gt a b = true -> lev_gt b c = true -> lev_gt a c = true.
Proof. destruct a, b, c; simpl; auto; try discriminate. lia. Qed.
Lemma lev_gt_le_trans a b c : lev_gt a b = true -> lev_gt c b = false -> lev_gt a c = true.
Proof. destruct a, b, c; simpl; auto; try discriminate; lia. Qed.
Lemma lev_gt_asym a b : lev_gt a b = true -> lev_gt b a = false.
Proof. destruct a, b; simpl; auto; try discriminate; lia. Qed.
Lemma lev_gt_irrefl a : lev_gt a a = false.
Proof. destruct a; simpl; auto; lia. Qed.

(** pc_low only goes up, and is one of the requested levels or the start value. *)
Lemma pc_low_mono es : forall c, lev_gt (pc_low c) (pc_low (fold_left pc_step es c)) = false.
Proof.
  induction es as [|e es IH]; intros c; cbn [fold_left]; [apply lev_gt_irrefl|].
  specialize (IH (pc_step c e)).
  destruct e as [w|l].
  - assert (E : pc_low (pc_step c (PStore w)) = pc_low c).
    { simpl. unfold storeItems. now destruct (insertWalker (pc_list c) w). }
    now rewrite E in IH.
  - cbn [pc_step] in *. unfold getParamMinmax in *. cbn [fst] in *.
    destruct (lev_gt l (pc_low c)) eqn:E; auto.
    unfold calculateParamMinmax in IH at 1. cbn [pc_low] in IH.
    match goal with |- lev_gt ?a ?b = false => destruct (lev_gt a b) eqn:G; auto end.
    assert (lev_gt l (pc_low (fold_left pc_step es (calculateParamMinmax c l))) = true).
    { eapply lev_gt_trans; eauto. }
    congruence.
Qed.

Lemma pc_low_bound l es : forall c, lev_gt l (pc_low c) = true ->
  (forall l', In (PGet l') es -> lev_gt l l' = true) ->
  lev_gt l (pc_low (fold_left pc_step es c)) = true.
Proof.
  induction es as [|e es IH]; intros c Hc Hes; cbn [fold_left]; auto.
  apply IH; [|intros; apply Hes; now right].
  destruct e as [w|l']; cbn [pc_step].
  - unfold storeItems. destruct (insertWalker (pc_list c) w). auto.
  - unfold getParamMinmax. cbn [fst]. destruct (lev_gt l' (pc_low c)) eqn:E; auto.
    cbn. apply Hes. now left.
Qed.

(** Cropping below the final level does not matter. *)
Lemma survivors_crops_high l es : forall low,
  (forall l', In (PGet l') es -> lev_gt l l' = true) ->
  filter (pabove l) (survivors (crops low es)) = filter (pabove l) (map payload (stored es)).
Proof.
  induction es as [|e es IH]; intros low H; [reflexivity|].
  assert (H' : forall l', In (PGet l') es -> lev_gt l l' = true) by (intros; apply H; now right).
  destruct e as [w|l']; cbn [crops stored flat_map app map].
  - fold (stored es). cbn [survivors]. 
    destruct (forallb _ (crops low es)) eqn:E.
    + cbn [filter]. rewrite IH by auto. reflexivity.
    + rewrite IH by auto. cbn [map filter].
      assert (A : pabove l (payload w) = false).
      { unfold pabove. cbn [payload snd]. destruct (lev_gt (Some (wlogL w)) l) eqn:G; auto.
        exfalso. enough (T : forallb (fun e => match e with
                           | WCrop low => lev_gt (Some (wlogL w)) low
                           | WStore _ => true end) (crops low es) = true) by congruence.
        clear - H' G. revert low. induction es as [|e es IH]; intros low; [reflexivity|].
        assert (Hr : forall l', In (PGet l') es -> lev_gt l l' = true) by (intros; apply H'; now right).
        destruct e as [v|l']; cbn [crops forallb].
        - now apply IH.
        - destruct (lev_gt l' low); [|now apply IH]. cbn [forallb].
          rewrite IH by auto. rewrite andb_true_r. eapply lev_gt_trans; eauto. apply H'. now left. }
      now rewrite A.
  - fold (stored es). destruct (lev_gt l' low); cbn [survivors]; now apply IH.
Qed.

Lemma pc_get_fresh es l :
  (forall l', In (PGet l') es -> lev_gt l l' = true) -> l <> None ->
  exists ws, snd (getParamMinmax (pc_run es) l) = Some (boxOf 0 ws) /\
    Permutation (map payload (filter (above l) (stored es))) (map payload ws).
Proof.
  intros H Hl. unfold pc_run.
  assert (G : lev_gt l (pc_low (fold_left pc_step es pc_init)) = true).
  { apply pc_low_bound; auto. destruct l; simpl; congruence. }
  unfold getParamMinmax. rewrite G. cbn [snd calculateParamMinmax pc_box].
  eexists; split; [reflexivity|].
  rewrite pc_list_history. cbn [pc_low pc_list pc_init].
  destruct (wl_run_sorted (crops None es)) as (S & P & _).
  rewrite crop_payload by now apply ordered_psorted.
  rewrite map_filter_payload. rewrite <- (survivors_crops_high l es None) by auto.
  now apply in_filter_perm.
Qed.

Lemma tight_box_perm n r1 r2 lo hi : Permutation r1 r2 -> tight_box n r1 lo hi -> tight_box n r2 lo hi.
Proof.
  intros P (A & B & C & D). split; [exact A|]. split; [exact B|]. split.
  - intros r k Hr. apply C. eapply Permutation_in; [apply Permutation_sym|]; eauto.
  - intros k Hk. destruct (D k Hk) as [(q1 & I1 & E1) (q2 & I2 & E2)].
    split; [exists q1|exists q2]; split; auto; eapply Permutation_in; eauto.
Qed.

Lemma payload_perm_pars ws ws' : Permutation (map payload ws) (map payload ws') ->
  Permutation (map wpars ws) (map wpars ws').
Proof.
  intros H. apply (Permutation_map fst) in H. rewrite !map_map in H. exact H.
Qed.

Lemma pc_box_exact n es l :
  (forall l', In (PGet l') es -> lev_gt l l' = true) -> l <> None ->
  (forall w, In w (stored es) -> length (wpars w) = n) ->
  let live := filter (above l) (stored es) in
  (live = [] -> snd (getParamMinmax (pc_run es) l) = Some None) /\
  (live <> [] -> exists lo hi, snd (getParamMinmax (pc_run es) l) = Some (Some (lo, hi)) /\
                               tight_box n (map wpars live) lo hi).
Proof.
  intros H Hl Hn live. destruct (pc_get_fresh es l H Hl) as (ws & E & P). rewrite E.
  fold live in P. split.
  - intros N. rewrite N in P. apply Permutation_nil in P. destruct ws; [|discriminate].
    reflexivity.
  - intros N.
    assert (Lw : length ws = length live).
    { apply Permutation_length in P. rewrite !map_length in P. auto. }
    destruct (boxOf_tight 0 n ws) as (lo & hi & B & T).
    + intros w Hw. assert (I : In (payload w) (map payload live)).
      { eapply Permutation_in; [apply Permutation_sym; exact P|]. now apply in_map. }
      apply in_map_iff in I. destruct I as (v & Ev & Iv). unfold payload in Ev.
      injection Ev as Ev _. rewrite <- Ev. apply Hn. now apply filter_In in Iv.
    + rewrite Lw. destruct live; simpl; [congruence|lia].
    + exists lo, hi. rewrite B. split; auto.
      eapply tight_box_perm; [|exact T]. apply Permutation_sym. now apply payload_perm_pars.
Qed.

(** A request at a level that is not above all previous ones returns the previous box. *)
Lemma pc_box_cached es l : lev_gt l (pc_low (pc_run es)) = false ->
  getParamMinmax (pc_run es) l = (pc_run es, pc_box (pc_run es)).
Proof. unfold getParamMinmax. now intros ->. Qed.

(** The box in the cache is the one of the request that raised the level last. *)
Lemma pc_run_snoc es e : pc_run (es ++ [e]) = pc_step (pc_run es) e.
Proof. unfold pc_run. now rewrite fold_left_app. Qed.

Lemma pc_box_history es :
  (pc_low (pc_run es) = None /\ pc_box (pc_run es) = None /\
   forall l, In (PGet l) es -> l = None) \/
  (exists es1 es2 m, es = es1 ++ PGet m :: es2 /\ m <> None /\
     (forall l, In (PGet l) es1 -> lev_gt m l = true) /\
     (forall l, In (PGet l) es2 -> lev_gt l m = false) /\
     pc_low (pc_run es) = m /\
     pc_box (pc_run es) = snd (getParamMinmax (pc_run es1) m)).
Proof.
  induction es as [|e es IH] using rev_ind.
  - left. repeat split. intros l [].
  - rewrite pc_run_snoc. destruct e as [w|l]; cbn [pc_step].
    + assert (E1 : pc_low (fst (storeItems (pc_run es) w)) = pc_low (pc_run es)).
      { unfold storeItems. now destruct (insertWalker _ w). }
      assert (E2 : pc_box (fst (storeItems (pc_run es) w)) = pc_box (pc_run es)).
      { unfold storeItems. now destruct (insertWalker _ w). }
      rewrite E1, E2. destruct IH as [(A & B & C)|(es1 & es2 & m & A & B & C & D & E & F)].
      * left. split; auto. split; auto. intros l Hl. apply in_app_iff in Hl.
        destruct Hl as [Hl|[Hl|[]]]; [auto|discriminate].
      * right. exists es1, (es2 ++ [PStore w]), m. rewrite A at 1. rewrite <- app_assoc.
        split; auto. repeat split; auto. intros l Hl. apply in_app_iff in Hl.
        destruct Hl as [Hl|[Hl|[]]]; [auto|discriminate].
    + destruct (lev_gt l (pc_low (pc_run es))) eqn:G.
      * right. exists es, [], l. split; [reflexivity|]. split.
        { destruct l; [congruence|]. simpl in G. discriminate. }
        split.
        { destruct IH as [(A & B & C)|(es1 & es2 & m & A & B & C & D & E & F)].
          - intros l' Hl'. rewrite (C l' Hl'), <- A. exact G.
          - intros l' Hl'. rewrite E in G. rewrite A in Hl'. apply in_app_iff in Hl'.
            destruct Hl' as [Hl'|[Hl'|Hl']].
            + eapply lev_gt_trans; eauto.
            + injection Hl' as <-. auto.
            + eapply lev_gt_le_trans; eauto. }
        split; [intros ? []|]. unfold getParamMinmax. rewrite G. cbn. auto.
      * unfold getParamMinmax. rewrite G. cbn [fst].
        destruct IH as [(A & B & C)|(es1 & es2 & m & A & B & C & D & E & F)].
        -- left. split; auto. split; auto. intros l' Hl'. apply in_app_iff in Hl'.
           destruct Hl' as [Hl'|[Hl'|[]]]; auto. injection Hl' as <-.
           rewrite A in G. destruct l; auto. discriminate.
        -- right. exists es1, (es2 ++ [PGet l]), m. rewrite A at 1. rewrite <- app_assoc.
           split; auto. repeat split; auto. intros l' Hl'. apply in_app_iff in Hl'.
           destruct Hl' as [Hl'|[Hl'|[]]]; auto. injection Hl' as <-. now rewrite <- E.
Qed.

(** *** Dynamic collection *)
Definition items_of (o : option wlist) : list pwalker :=
  match o with Some l => wl_items l | None => [] end.

Definition dyn_ok (np : nat) (es : list devent) (c : pdyn) : Prop :=
  ordered (items_of (pd_list c np)) /\
  (forall l, (forall l', In (DGet np l') es -> lev_gt l l' = true) ->
     Permutation (filter (pabove l) (map payload (items_of (pd_list c np))))
                 (filter (pabove l) (map payload (dstored np es)))) /\
  (forall lo, pd_low c np = Some lo -> In (DGet np lo) es).

Lemma pd_run_snoc es e : pd_run (es ++ [e]) = pd_step (pd_run es) e.
Proof. unfold pd_run. now rewrite fold_left_app. Qed.

Lemma dstored_app np a b : dstored np (a ++ b) = dstored np a ++ dstored np b.
Proof. unfold dstored. apply flat_map_app. Qed.

Lemma dyn_run_ok np es : dyn_ok np es (pd_run es).
Proof.
  induction es as [|e es IH] using rev_ind.
  - repeat split; simpl; auto; try constructor. discriminate.
  - rewrite pd_run_snoc. destruct IH as (O & P & L). set (c := pd_run es) in *.
    destruct e as [k w|k l].
    + cbn [pd_step]. unfold storeDynamic.
      set (l0 := match pd_list c k with Some l => l | None => empty_wlist end).
      destruct (insertWalker l0 w) as [l1 id] eqn:E. cbn [fst].
      assert (I : wl_items l0 = items_of (pd_list c k)).
      { unfold l0. destruct (pd_list c k); reflexivity. }
      unfold dyn_ok. cbn [pd_list pd_low]. unfold dset.
      destruct (Nat.eqb_spec np k) as [->|N].
      * cbn [items_of].
        assert (O0 : ordered (wl_items l0)) by now rewrite I.
        assert (E1 : l1 = fst (insertWalker l0 w)) by now rewrite E.
        assert (Q : map payload (wl_items l1) =
          filter (fun q => negb (pabove (Some (snd (payload w))) q)) (map payload (wl_items l0))
          ++ payload w :: filter (pabove (Some (snd (payload w)))) (map payload (wl_items l0))).
        { rewrite E1. now apply insert_payload. }
        split; [|split].
        -- apply ordered_psorted. rewrite Q. apply psorted_insert. now apply ordered_psorted.
        -- intros l Hl. rewrite dstored_app. cbn [dstored flat_map]. rewrite Nat.eqb_refl.
           cbn [app]. rewrite map_app. cbn [map].
           assert (PP : Permutation (map payload (wl_items l1)) (map payload (wl_items l0) ++ [payload w])).
           { rewrite Q. eapply perm_trans; [|apply Permutation_cons_append].
             apply Permutation_sym. apply Permutation_cons_app. apply filter_split_perm. }
           eapply perm_trans; [apply in_filter_perm; exact PP|].
           rewrite !filter_app. apply Permutation_app_tail. rewrite I. apply P.
           intros l' Hl'. apply Hl. apply in_app_iff. now left.
        -- intros lo Hlo. apply in_app_iff. left. auto.
      * split; [exact O|]. split.
        -- intros l Hl. rewrite dstored_app. cbn [dstored flat_map].
           assert (Nk : (k =? np) = false) by (apply Nat.eqb_neq; auto). rewrite Nk.
           cbn [app]. rewrite app_nil_r. apply P. intros l' Hl'. apply Hl. apply in_app_iff. now left.
        -- intros lo Hlo. apply in_app_iff. left. auto.
    + cbn [pd_step]. unfold getDynamic. cbn [fst].
      set (again := match pd_low c k with None => true | Some lo => _ end).
      assert (St : dstored np (es ++ [DGet k l]) = dstored np es).
      { rewrite dstored_app. cbn. apply app_nil_r. }
      assert (W : forall (P0 : level -> Prop), (forall l', In (DGet np l') (es ++ [DGet k l]) -> P0 l') ->
                  forall l', In (DGet np l') es -> P0 l').
      { intros P0 H l' Hl'. apply H. apply in_app_iff. now left. }
      destruct again.
      * unfold calculateDynamic, dyn_ok. cbn [pd_list pd_low]. unfold dset. rewrite St.
        destruct (Nat.eqb_spec np k) as [->|N].
        -- cbn [items_of].
           assert (X : map payload (wl_items match pd_list c k with Some l0 => cropOnLow l0 l | None => empty_wlist end)
                   = filter (pabove l) (map payload (items_of (pd_list c k)))).
           { destruct (pd_list c k) eqn:E; cbn [items_of] in *; [now apply crop_payload|reflexivity]. }
           split; [|split].
           ++ apply ordered_psorted. rewrite X. apply psorted_filter. now apply ordered_psorted.
           ++ intros l2 H2. rewrite X. rewrite filter_filter_id.
              ** apply P. eapply W. exact H2.
              ** intros x. unfold pabove. intros G. eapply lev_gt_trans; [exact G|]. apply H2.
                 apply in_app_iff. right. now left.
           ++ intros lo Hlo. injection Hlo as <-. apply in_app_iff. right. now left.
        -- split; [exact O|]. split.
           ++ intros l2 H2. apply P. eapply W. exact H2.
           ++ intros lo Hlo. apply in_app_iff. left. auto.
      * split; [exact O|]. rewrite St. split.
        -- intros l2 H2. apply P. eapply W. exact H2.
        -- intros lo Hlo. apply in_app_iff. left. auto.
Qed.

Lemma pd_box_exact n np es l :
  (forall l', In (DGet np l') es -> lev_gt l l' = true) ->
  (forall w, In w (dstored np es) -> length (wpars w) = n) ->
  let live := filter (above l) (dstored np es) in
  (length live <= 5 -> snd (getDynamic (pd_run es) l np) = Some None) /\
  (5 < length live -> exists lo hi, snd (getDynamic (pd_run es) l np) = Some (Some (lo, hi)) /\
                                    tight_box n (map wpars live) lo hi).
Proof.
  intros H Hn live. destruct (dyn_run_ok np es) as (O & P & L).
  set (c := pd_run es) in *.
  set (ws := wl_items match pd_list c np with Some l0 => cropOnLow l0 l | None => empty_wlist end).
  assert (E : snd (getDynamic c l np) = Some (boxOf minpars ws)).
  { unfold getDynamic. 
    assert (A : match pd_low c np with
                | None => true
                | Some l0 => lev_gt l l0 || match pd_box c np with Some None => true | _ => false end
                end = true).
    { destruct (pd_low c np) as [lo|] eqn:El; auto. rewrite (H lo) by now apply L. reflexivity. }
    rewrite A. cbn [snd calculateDynamic pd_box]. unfold dset. now rewrite Nat.eqb_refl. }
  assert (Q : Permutation (map payload live) (map payload ws)).
  { unfold live, ws. rewrite map_filter_payload.
    eapply perm_trans; [apply Permutation_sym; apply P; exact H|].
    destruct (pd_list c np); cbn [items_of] in *.
    - now rewrite crop_payload.
    - reflexivity. }
  assert (Lw : length ws = length live).
  { apply Permutation_length in Q. rewrite !map_length in Q. auto. }
  rewrite E. split.
  - intros S. rewrite boxOf_none; auto. rewrite Lw. exact S.
  - intros S. destruct (boxOf_tight minpars n ws) as (lo & hi & B & T).
    + intros w Hw. assert (I : In (payload w) (map payload live)).
      { eapply Permutation_in; [apply Permutation_sym; exact Q|]. now apply in_map. }
      apply in_map_iff in I. destruct I as (v & Ev & Iv). unfold payload in Ev.
      injection Ev as Ev _. rewrite <- Ev. apply Hn. now apply filter_In in Iv.
    + rewrite Lw. exact S.
    + exists lo, hi. rewrite B. split; auto.
      eapply tight_box_perm; [|exact T]. apply Permutation_sym. now apply payload_perm_pars.
Qed.

(** *** Identities in the ensemble *)
From Verif Require Import P_Order.

Definition ids (ws : list pwalker) : list nat := map wid ws.

Lemma ids_upd k w ws : ids (upd k w ws) = upd k (wid w) (ids ws).
Proof. revert k. induction ws; destruct k; simpl; auto. now f_equal. Qed.

Lemma upd_same {A} k (x : A) l : nth_error l k = Some x -> upd k x l = l.
Proof. revert k. induction l; destruct k; simpl; intros H; try discriminate; auto.
  - congruence. - f_equal; auto. Qed.

Lemma in_upd {A} (k : nat) (x y : A) l : In y (upd k x l) -> y = x \/ In y l.
Proof.
  revert k. induction l as [|a l IH]; intros [|k]; simpl; auto; intros [H|H]; auto.
  destruct (IH _ H); auto.
Qed.

Lemma NoDup_upd {A} k (x : A) l : NoDup l -> ~ In x l -> NoDup (upd k x l).
Proof.
  revert k. induction l as [|a l IH]; intros k N H.
  { destruct k; constructor. }
  inversion N; subst. destruct k; simpl.
  - constructor; auto. intro; apply H; now right.
  - constructor.
    + intros I. apply in_upd in I. destruct I as [->|I]; [apply H; now left|auto].
    + apply IH; auto. intro; apply H; now right.
Qed.

Lemma insert_count wl w : wl_count (fst (insertWalker wl w)) = S (wl_count wl).
Proof. unfold insertWalker. now destruct (firstIndex _ _). Qed.
Lemma insert_id wl w : snd (insertWalker wl w) = wid w \/ snd (insertWalker wl w) = wl_count wl.
Proof. unfold insertWalker. destruct (firstIndex _ _); auto. Qed.

Definition static_ids_ok (ws : list pwalker) (c : pcoll) : Prop :=
  NoDup (ids ws) /\ Forall (fun i => i < wl_count (pc_list c)) (ids ws).

Lemma static_ids_step e ws c ws' c' :
  static_ids_ok ws c -> ens_step_static (Some (ws, c)) e = Some (ws', c') ->
  static_ids_ok ws' c' /\ length ws' = length ws.
Proof.
  intros [N F] E. destruct e as [kw np pars logL| |s d|low np]; cbn [ens_step_static] in E.
  - unfold eng_setWalker_static in E. destruct (nth_error ws kw) as [old|] eqn:K; [|discriminate].
    unfold storeItems in E.
    pose proof (insert_count (pc_list c) (mkW (wid old) pars logL)) as C.
    pose proof (insert_id (pc_list c) (mkW (wid old) pars logL)) as I.
    destruct (insertWalker (pc_list c) (mkW (wid old) pars logL)) as [l id].
    cbn [fst snd] in C, I. injection E as <- <-. split; [|apply upd_length].
    unfold static_ids_ok. rewrite ids_upd. cbn [set_id wid pc_list]. rewrite C.
    assert (F' : Forall (fun i => i < S (wl_count (pc_list c))) (ids ws)).
    { eapply Forall_impl; [|exact F]. simpl. intros; lia. }
    destruct I as [->| ->].
    + cbn [wid]. rewrite upd_same. auto. unfold ids. now apply map_nth_error.
    + split.
      * apply NoDup_upd; auto. intros I. rewrite Forall_forall in F. apply F in I. lia.
      * apply Forall_upd; auto.
  - injection E as <- <-. pose proof (sort_walkers_perm ws) as P. split.
    + assert (P' : Permutation (ids ws) (ids (sort_walkers ws))) by now apply Permutation_map.
      split; [eapply Permutation_NoDup; eauto|].
      rewrite Forall_forall in *. intros x Hx. apply F.
      eapply Permutation_in; [apply Permutation_sym|]; eauto.
    + symmetry. now apply Permutation_length.
  - unfold copy_walker, pwalker in *. destruct (nth_error ws s) as [ws0|] eqn:Es; [|cbn in E; discriminate].
    destruct (nth_error ws d) as [wd|] eqn:Ed; [|cbn in E; discriminate].
    cbn in E. injection E as <- <-. split; [|apply upd_length].
    unfold static_ids_ok. rewrite ids_upd. cbn [wid]. rewrite upd_same; [split; auto|].
    unfold ids. now apply map_nth_error.
  - injection E as <- <-. split; auto. split; auto.
    unfold getParamMinmax. cbn [fst]. destruct (lev_gt low (pc_low c)); auto.
Qed.

Lemma static_ids_run es : forall ws c ws' c',
  static_ids_ok ws c -> fold_left ens_step_static es (Some (ws, c)) = Some (ws', c') ->
  static_ids_ok ws' c' /\ length ws' = length ws.
Proof.
  induction es as [|e es IH]; intros ws c ws' c' H E; cbn [fold_left] in E.
  - injection E as <- <-. auto.
  - destruct (ens_step_static (Some (ws, c)) e) as [[ws1 c1]|] eqn:E1; try rewrite E1 in E.
    + destruct (static_ids_step _ _ _ _ _ H E1) as [H1 L1].
      destruct (IH _ _ _ _ H1 E) as [H2 L2]. split; auto. congruence.
    + exfalso. clear - E. induction es; cbn in E; [discriminate|auto].
Qed.

(** The start: walkers 0..n-1, each stored once, in order (NestedSampler.initWalkers). *)
Definition start_events (starts : list (list Z * Z)) : list ens_event :=
  map (fun '(k, (p, l)) => NStore k 0 p l) (combine (seq 0 (length starts)) starts).

Lemma NoDup_ids_start n (mk : nat -> pwalker) : (forall k, wid (mk k) = k) ->
  ids (map mk (seq 0 n)) = seq 0 n.
Proof. intros H. unfold ids. rewrite map_map. rewrite <- map_id. apply map_ext. exact H. Qed.

Lemma insert_id_nonempty wl w : wl_items wl <> [] -> snd (insertWalker wl w) = wid w.
Proof. unfold insertWalker, firstIndex. destruct (wl_items wl); [congruence|reflexivity]. Qed.

Lemma insert_nonempty wl w : wl_items (fst (insertWalker wl w)) <> [].
Proof.
  intros H. pose proof (insert_items wl w) as E. rewrite H in E. cbn in E.
  destruct (map payload (firstn _ _)); discriminate.
Qed.

Lemma start_rest starts : forall k ws c,
  ids ws = seq 0 (length ws) -> k + length starts = length ws ->
  wl_count (pc_list c) = k -> (0 < k -> wl_items (pc_list c) <> []) ->
  exists ws' c', fold_left ens_step_static
     (map (fun '(k, (p, l)) => NStore k 0 p l) (combine (seq k (length starts)) starts))
     (Some (ws, c)) = Some (ws', c') /\ ids ws' = ids ws /\
     wl_count (pc_list c') = length ws.
Proof.
  induction starts as [|[p l] starts IH]; intros k ws c I L C NE.
  - simpl in *. exists ws, c. repeat split; auto. lia.
  - cbn [length] in L. cbn [length seq combine map fold_left ens_step_static].
    unfold eng_setWalker_static.
    assert (Hk : k < length ws) by lia.
    destruct (nth_error ws k) as [old|] eqn:K.
    2:{ apply nth_error_None in K. lia. }
    assert (Ik : wid old = k).
    { pose proof (map_nth_error wid k ws K) as M. fold (ids ws) in M. rewrite I in M.
      rewrite (nth_error_nth' _ 0) in M by (rewrite seq_length; lia).
      injection M as M. rewrite seq_nth in M; lia. }
    unfold storeItems.
    pose proof (insert_count (pc_list c) (mkW (wid old) p l)) as Cn.
    pose proof (insert_nonempty (pc_list c) (mkW (wid old) p l)) as Nn.
    assert (Id : snd (insertWalker (pc_list c) (mkW (wid old) p l)) = k).
    { destruct k.
      - destruct (insert_id (pc_list c) (mkW (wid old) p l)) as [X|X]; rewrite X; simpl; auto.
      - rewrite insert_id_nonempty; auto. apply NE. lia. }
    destruct (insertWalker (pc_list c) (mkW (wid old) p l)) as [wl id]. cbn [fst snd] in *. subst id.
    assert (U : ids (upd k (set_id k (mkW (wid old) p l)) ws) = ids ws).
    { rewrite ids_upd. cbn. apply upd_same. rewrite <- Ik at 2. unfold ids. now apply map_nth_error. }
    destruct (IH (S k) (upd k (set_id k (mkW (wid old) p l)) ws) (mkPC wl (pc_low c) (pc_box c)))
      as (ws' & c' & E & E1 & E2).
    + rewrite U, upd_length. exact I.
    + rewrite upd_length. lia.
    + cbn [pc_list]. lia.
    + intros _. exact Nn.
    + exists ws', c'. split; [exact E|]. split; [congruence|]. rewrite E2. apply upd_length.
Qed.

Lemma static_ids_unique (ws0 : list pwalker) starts es ws c :
  ids ws0 = seq 0 (length ws0) -> length starts = length ws0 ->
  fold_left ens_step_static (start_events starts ++ es) (Some (ws0, pc_init)) = Some (ws, c) ->
  NoDup (ids ws) /\ length ws = length ws0.
Proof.
  intros I L E. rewrite fold_left_app in E.
  destruct (start_rest starts 0 ws0 pc_init I) as (ws1 & c1 & E1 & I1 & C1); auto.
  { intros; lia. }
  unfold start_events in E. rewrite E1 in E.
  assert (L1 : length ws1 = length ws0).
  { apply (f_equal (@length nat)) in I1. unfold ids in I1. now rewrite !map_length in I1. }
  apply static_ids_run in E.
  - rewrite L1 in E. destruct E as [[N _] L2]. auto.
  - split.
    + rewrite I1, I. apply seq_NoDup.
    + rewrite I1, I, C1. apply Forall_forall. intros x Hx. apply in_seq in Hx. lia.
Qed.
