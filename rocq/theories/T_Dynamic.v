(** Property theorems C13 - C16: dynamic models and RepeatingModel. *)
From Coq Require Import List Arith ZArith Reals Lia Lra Bool Permutation Sorted.
From Verif Require Import L_List M_Order P_Order M_Dynamic P_Dynamic P_Repeat.
Import ListNotations.

(** C13: insertion. *)
Theorem C13_insert :
  forall (A : Type) (p : list A) (loc d off : nat) (v : list A), 0 < d ->
    off + loc <= length p -> length v = d ->
    exists q, alterParameters p loc (Z.of_nat d) off v = Some q /\
      length q = length p + d /\
      forall i, nth_error q i =
        if i <? off + loc then nth_error p i
        else if i <? off + loc + d then nth_error v (i - (off + loc))
        else nth_error p (i - d).
Proof.
  intros A p loc d off v Hd H1 H2. rewrite alter_grow_some by auto. eexists. split; [reflexivity|].
  set (k := off + loc) in *.
  assert (Lk : length (firstn k p) = k) by (rewrite firstn_length; lia).
  split; [rewrite !app_length, skipn_length, Lk; lia|].
  intros i. destruct (i <? k) eqn:E1; [apply Nat.ltb_lt in E1|apply Nat.ltb_ge in E1].
  - rewrite nth_error_app1 by lia. apply nth_error_firstn'. exact E1.
  - rewrite nth_error_app2, Lk by lia. destruct (i <? k + d) eqn:E2; [apply Nat.ltb_lt in E2|apply Nat.ltb_ge in E2].
    + now rewrite nth_error_app1 by lia.
    + rewrite nth_error_app2 by lia. rewrite nth_error_skipn'. f_equal. lia.
Qed.
Print Assumptions C13_insert.

(** C13: deletion of the d parameters before offset + location. *)
Theorem C13_delete :
  forall (A : Type) (p : list A) (loc d off : nat) (v : list A),
    off + loc <= length p -> d <= loc ->
    exists q, alterParameters p loc (- Z.of_nat d) off v = Some q /\
      length q + d = length p /\
      forall i, nth_error q i = if i <? off + loc - d then nth_error p i else nth_error p (i + d).
Proof.
  intros A p loc d off v H1 H2. rewrite alter_shrink_some by auto. eexists. split; [reflexivity|].
  set (k := off + loc) in *.
  assert (Lk : length (firstn (k - d) p) = k - d) by (rewrite firstn_length; lia).
  split; [rewrite !app_length, skipn_length, Lk; lia|].
  intros i. destruct (i <? k - d) eqn:E1; [apply Nat.ltb_lt in E1|apply Nat.ltb_ge in E1].
  - rewrite nth_error_app1 by lia. apply nth_error_firstn'. exact E1.
  - rewrite nth_error_app2, Lk by lia. rewrite nth_error_skipn'. f_equal. lia.
Qed.
Print Assumptions C13_delete.

(** C13: deleting what was just inserted restores the list. *)
Theorem C13_delete_after_insert :
  forall (A : Type) (p q : list A) (loc d off : nat) (v w : list A), 0 < d ->
    alterParameters p loc (Z.of_nat d) off v = Some q ->
    alterParameters q (loc + d) (- Z.of_nat d) off w = Some p.
Proof.
  intros A p q loc d off v w Hd E. apply alter_grow_spec in E; auto. destruct E as (E1 & E2 & ->).
  assert (Lk : length (firstn (off + loc) p) = off + loc) by (rewrite firstn_length; lia).
  rewrite alter_shrink_some; [|lia|rewrite !app_length, skipn_length, Lk; lia].
  f_equal. replace (off + (loc + d) - d) with (off + loc) by lia.
  rewrite firstn_app, Lk, Nat.sub_diag, firstn_firstn, Nat.min_id. cbn [firstn]. rewrite app_nil_r.
  rewrite skipn_app, Lk, skipn_all2 by lia. cbn [app].
  rewrite skipn_app, skipn_all2 by lia. cbn [app].
  replace (off + (loc + d) - (off + loc) - length v) with 0 by lia. cbn [skipn]. apply firstn_skipn.
Qed.
Print Assumptions C13_delete_after_insert.

(** C13: deleting before the start of the dynamic model is refused. *)
Theorem C13_refused :
  forall (A : Type) (p : list A) (loc d off : nat) (v : list A), loc < d ->
    alterParameters p loc (- Z.of_nat d) off v = None.
Proof.
  intros A p loc d off v H. unfold alterParameters.
  destruct (0 <? - Z.of_nat d)%Z eqn:E; [apply Z.ltb_lt in E; lia|].
  rewrite Z.opp_involutive, Nat2Z.id. destruct (loc <? d) eqn:F; [reflexivity|apply Nat.ltb_ge in F; lia].
Qed.
Print Assumptions C13_refused.

Example C13_documented :
  alterParameters [0;1;2;3;4;5;6;7;8;9] 1 2 2 [100;101] = Some [0;1;2;100;101;3;4;5;6;7;8;9] /\
  alterParameters [0;1;2;3;4;5;6;7;8;9] 1 (-1) 2 [] = Some [0;1;3;4;5;6;7;8;9] /\
  alterParameters [0;1;2;3;4;5;6;7;8;9] 1 (-2) 2 [] = None.
Proof. repeat split. Qed.

(** C14: growing.  [f ++ h] is the fit index: increasing parameter indices, then negative
    indices of hyper parameters.  The new index selects from the new list exactly the values
    the old one selected from the old list, with the new values in between; when all
    parameters were free they all are free afterwards. *)
Theorem C14_grow :
  forall (A : Type) (dflt : A) (pars hyp : list A) (f h : list Z) (loc d off : nat) (v q : list A),
    0 < d -> good_fit (length pars) (length hyp) f h ->
    alterParameters pars loc (Z.of_nat d) off v = Some q ->
    exists f' a b, alterFitindex (f ++ h) loc (Z.of_nat d) off = Some (f' ++ h) /\
      f = a ++ b /\
      map (pyget dflt (q ++ hyp)) (f' ++ h)
      = map (pyget dflt (pars ++ hyp)) a ++ v ++ map (pyget dflt (pars ++ hyp)) (b ++ h) /\
      good_fit (length q) (length hyp) f' h /\ length f' = length f + d /\
      (length f = length pars -> f' = map Z.of_nat (seq 0 (length q))).
Proof.
  intros A dflt pars hyp f h loc d off v q Hd G E. apply alter_grow_spec in E; auto.
  destruct E as (E1 & E2 & ->).
  destruct (alterFitindex_grow dflt pars hyp f h loc d off v Hd E1 E2 G)
    as (fi & a & b & F1 & F2 & F3 & f' & -> & F4 & F5 & F6).
  exists f', a, b. auto 8.
Qed.
Print Assumptions C14_grow.

(** C14: shrinking, when the deleted parameters were all free. *)
Theorem C14_shrink :
  forall (A : Type) (dflt : A) (pars hyp : list A) (f h : list Z) (loc d off : nat) (w q : list A),
    good_fit (length pars) (length hyp) f h ->
    (forall i, off + loc - d <= i < off + loc -> In (Z.of_nat i) f) ->
    alterParameters pars loc (- Z.of_nat d) off w = Some q ->
    exists f' a c, alterFitindex (f ++ h) loc (- Z.of_nat d) off = Some (f' ++ h) /\
      f = a ++ map Z.of_nat (seq (off + loc - d) d) ++ c /\
      map (pyget dflt (q ++ hyp)) (f' ++ h) = map (pyget dflt (pars ++ hyp)) (a ++ c ++ h) /\
      good_fit (length q) (length hyp) f' h /\ length f' + d = length f /\
      (length f = length pars -> f' = map Z.of_nat (seq 0 (length q))).
Proof.
  intros A dflt pars hyp f h loc d off w q G Hin E. apply alter_shrink_spec in E.
  destruct E as (E1 & E2 & ->).
  destruct (alterFitindex_shrink dflt pars hyp f h loc d off E1 E2 G Hin)
    as (fi & a & b & F1 & F2 & F3 & f' & -> & F4 & F5 & F6).
  exists f', a, b. auto 8.
Qed.
Print Assumptions C14_shrink.

Example C14_hypotheses_met :
  good_fit 5 1 [0;1;3;4]%Z [-1]%Z /\
  alterFitindex [0;1;3;4;-1]%Z 2 (Z.of_nat 2) 1 = Some [0;1;3;4;5;6;-1]%Z /\
  alterFitindex [0;1;3;4;-1]%Z 4 (-2)%Z 1 = Some [0;1;-1]%Z.
Proof.
  split; [|split; reflexivity]. split.
  - repeat (apply SSorted_cons); try apply SSorted_nil; repeat (apply Forall_cons); try apply Forall_nil; lia.
  - split; repeat (apply Forall_cons); try apply Forall_nil; simpl; lia.
Qed.

(** Finding: when a parameter in the deleted slice was kept fixed, one too many of the free
    parameters drops out of the index: here parameter 3 (now 2) of the next model in the chain. *)
Theorem C14_shrink_with_kept_refuted :
  exists (f h : list Z), good_fit 4 0 f h /\ In 3%Z f /\
    exists fi, alterFitindex (f ++ h) 3 (-1) 0 = Some fi /\ ~ In 2%Z fi.
Proof.
  exists [0;1;3]%Z, []. split; [|split].
  - split; [|split]; repeat constructor; simpl; lia.
  - simpl. auto.
  - eexists. split; [reflexivity|]. simpl. intuition lia.
Qed.
Print Assumptions C14_shrink_with_kept_refuted.

(** C15: models with a fixed number of parameters per component (PolynomialDynamicModel,
    HarmonicDynamicModel) anywhere in a chain, any history of grow and shrink calls. *)
Theorem C15_count_per_component :
  forall (A : Type) (c : dconf) (off : nat) (es : list (dyn_event A)) (s s' : dstate A),
    0 < c_delta c -> dyn_ok (fun n => n * c_delta c) c off s ->
    fold_left (dyn_step (dyn_grow c off) (dyn_shrink c off)) es (Some s) = Some s' ->
    within c (d_ncomp s') /\ d_npbase s' = d_ncomp s' * c_delta c /\
    length (d_pars s') = d_npchain s' /\
    firstn off (d_pars s') = firstn off (d_pars s) /\
    skipn (off + d_npbase s') (d_pars s') = skipn (off + d_npbase s) (d_pars s).
Proof.
  intros A c off es s s' Hd I E.
  destruct (dyn_run_inv (A:=A) (dyn_ok (fun n => n * c_delta c) c off) (frame off) (dyn_grow c off) (dyn_shrink c off)
     (frame_refl off) (frame_trans off)) with (es := es) (s := s) (s' := s') as [(W & C & L & _) (F1 & F2)]; auto.
  - intros. eapply dyn_grow_ok; eauto.
  - intros. eapply dyn_shrink_ok; eauto.
Qed.
Print Assumptions C15_count_per_component.

(** C15: RepeatingModel with shared parameters. *)
Theorem C15_count_repeating :
  forall (A : Type) (c : dconf) (off : nat) (es : list (dyn_event A)) (s s' : dstate A),
    0 < c_delta c -> 0 < c_first c -> dyn_ok (rep_count c) c off s ->
    fold_left (dyn_step (rep_grow c off) (rep_shrink c off)) es (Some s) = Some s' ->
    within c (d_ncomp s') /\ d_npbase s' = rep_count c (d_ncomp s') /\
    length (d_pars s') = d_npchain s' /\
    firstn off (d_pars s') = firstn off (d_pars s) /\
    skipn (off + d_npbase s') (d_pars s') = skipn (off + d_npbase s) (d_pars s).
Proof.
  intros A c off es s s' Hd Hf I E.
  destruct (dyn_run_inv (A:=A) (dyn_ok (rep_count c) c off) (frame off) (rep_grow c off) (rep_shrink c off)
     (frame_refl off) (frame_trans off)) with (es := es) (s := s) (s' := s') as [(W & C & L & _) (F1 & F2)]; auto.
  - intros. eapply rep_grow_ok; eauto.
  - intros. eapply rep_shrink_ok; eauto.
Qed.
Print Assumptions C15_count_repeating.

Example C15_nontrivial :
  let c := mkC 1 (Some 3) 2 3 true in
  let s := mkD 1 3 5 [10;0;1;2;20] in
  dyn_ok (rep_count c) c 1 s /\
  fold_left (dyn_step (rep_grow c 1) (rep_shrink c 1)) [DShrink; DGrow [5;6]; DGrow [7;8]; DGrow [9;9]; DShrink] (Some s)
  = Some (mkD 2 5 7 [10;0;1;2;5;6;20]).
Proof. split; [|reflexivity]. repeat split; simpl; lia. Qed.

(** C15: a consistent model that may grow does so (no exception), and says so. *)
Theorem C15_grow_succeeds :
  forall (A : Type) (c : dconf) (off : nat) (v : list A) (s : dstate A),
    0 < c_delta c -> 0 < c_first c -> dyn_ok (rep_count c) c off s -> c_dyna c = true ->
    match c_max c with Some m => d_ncomp s < m | None => True end ->
    length v = (if 0 <? d_ncomp s then c_delta c else c_first c) ->
    exists s', rep_grow c off v s = Some (s', true) /\ d_ncomp s' = d_ncomp s + 1 /\
      d_pars s' = firstn (off + d_npbase s) (d_pars s) ++ v ++ skipn (off + d_npbase s) (d_pars s).
Proof.
  intros A c off v s Hd Hf (W & C & L & K) Dy M Lv. unfold rep_grow. rewrite Dy. cbn [negb].
  assert (X : at_max c (d_ncomp s) = false).
  { unfold at_max. destruct (c_max c); auto. now apply Nat.leb_gt. }
  rewrite X.
  assert (P : 0 < (if 0 <? d_ncomp s then c_delta c else c_first c)) by (destruct (0 <? d_ncomp s); auto).
  destruct (grow_total _ off v s P L K Lv) as (s' & E). rewrite E. exists s'. split; [reflexivity|].
  apply grow_by_spec in E; auto. destruct E as (E1 & _ & _ & _ & _ & _ & E2). auto.
Qed.
Print Assumptions C15_grow_succeeds.

Theorem C15_shrink_succeeds :
  forall (A : Type) (c : dconf) (off : nat) (s : dstate A),
    dyn_ok (rep_count c) c off s -> c_dyna c = true -> c_min c < d_ncomp s ->
    exists s', rep_shrink c off s = Some (s', true) /\ d_ncomp s' = d_ncomp s - 1 /\
      d_pars s' = firstn (off + rep_count c (d_ncomp s - 1)) (d_pars s) ++ skipn (off + d_npbase s) (d_pars s).
Proof.
  intros A c off s (W & C & L & K) Dy M. unfold rep_shrink. rewrite Dy. cbn [negb orb].
  destruct (d_ncomp s <=? c_min c) eqn:X; [apply Nat.leb_le in X; lia|].
  assert (P : (if 1 <? d_ncomp s then c_delta c else c_first c) + rep_count c (d_ncomp s - 1) = d_npbase s).
  { rewrite C. destruct (d_ncomp s) as [|[|n]]; cbn; [lia|lia|]. lia. }
  destruct (shrink_total (if 1 <? d_ncomp s then c_delta c else c_first c) off s L K ltac:(lia)) as (s' & E).
  rewrite E. exists s'. split; [reflexivity|].
  apply shrink_by_spec in E; auto. destruct E as (E1 & _ & _ & _ & _ & _ & E2). split; auto.
  rewrite E2. do 2 f_equal. lia.
Qed.
Print Assumptions C15_shrink_succeeds.

(** The constructor's count agrees with the one kept by grow and shrink ... *)
Theorem C15_constructor_count :
  forall (ncomp mnp : nat) (same : list nat), 0 < ncomp ->
    NoDup same -> (forall k, In k same -> k < mnp) ->
    rep_npars ncomp mnp (length same)
    = Z.of_nat (mnp + (ncomp - 1) * length (rep_index mnp same)).
Proof.
  intros ncomp mnp same Hn N Hs. unfold rep_npars, rep_index.
  assert (L : length (filter (fun k => negb (existsb (Nat.eqb k) same)) (seq 0 mnp)) + length same = mnp).
  { assert (P : Permutation (filter (fun k => existsb (Nat.eqb k) same) (seq 0 mnp)) same).
    { apply NoDup_Permutation; auto.
      - apply NoDup_filter, seq_NoDup.
      - intros x. rewrite filter_In, in_seq, existsb_exists. split.
        + intros (_ & y & Hy & E). apply Nat.eqb_eq in E. congruence.
        + intros Hx. split; [specialize (Hs x Hx); lia|]. exists x. split; auto. apply Nat.eqb_refl. }
    rewrite <- (Permutation_length P).
    assert (G : forall (g : nat -> bool) l, length (filter (fun k => negb (g k)) l) + length (filter g l) = length l).
    { intros g l. induction l as [|x l IH]; simpl; auto. destruct (g x); simpl; lia. }
    rewrite G. apply seq_length. }
  nia.
Qed.
Print Assumptions C15_constructor_count.

(** ... but not for zero components with shared parameters: the new model has parameters
    although it has no component, and keeps them after growing. *)
Theorem C15_zero_components_refuted :
  exists mnp same, NoDup same /\ (forall k, In k same -> k < mnp) /\
    rep_npars 0 mnp (length same) <> 0%Z /\
    exists s', rep_grow (mkC 0 None (length (rep_index mnp same)) mnp true) 0 [1;2;3]
                 (mkD 0 1 1 [0]) = Some (s', true) /\
      rep_npars 0 mnp (length same) = 1%Z /\ d_ncomp s' = 1 /\ d_npbase s' <> mnp.
Proof.
  exists 3, [1]. split; [repeat constructor; simpl; tauto|]. split; [simpl; intros k [<-|[]]; lia|].
  split; [discriminate|]. eexists. split; [reflexivity|]. split; [reflexivity|]. split; [reflexivity|]. cbn. lia.
Qed.
Print Assumptions C15_zero_components_refuted.

(** C15 through the engines: a birth or a death keeps the walker consistent: as many values as
    the model and the error distribution have parameters, all of them free again, and the
    hyper parameters unchanged. *)
Definition walker_ok {A} (count : nat -> nat) (c : dconf) (off nhyp : nat) (hyp : list A) (h : list Z)
    (w : dwalker A) : Prop :=
  dyn_ok count c off (dw_model w) /\
  dw_allpars w = d_pars (dw_model w) ++ hyp /\ length hyp = nhyp /\
  Forall (fun x => - Z.of_nat nhyp <= x < 0)%Z h /\
  dw_fit w = map Z.of_nat (seq 0 (d_npchain (dw_model w))) ++ h.

Lemma full_good n nhyp h : Forall (fun x => - Z.of_nat nhyp <= x < 0)%Z h ->
  good_fit n nhyp (map Z.of_nat (seq 0 n)) h.
Proof.
  intros H. split; [|split; auto].
  - assert (G : forall k, StronglySorted Z.lt (map Z.of_nat (seq k n))).
    { clear. induction n; intros k; simpl; constructor; auto. apply Forall_forall. intros x Hx.
      apply in_map_iff in Hx. destruct Hx as (y & <- & Hy). apply in_seq in Hy. lia. }
    apply G.
  - apply Forall_forall. intros x Hx. apply in_map_iff in Hx. destruct Hx as (y & <- & Hy). apply in_seq in Hy. lia.
Qed.

Theorem C15_birth_keeps_walker :
  forall (A : Type) (c : dconf) (off nhyp : nat) (v hyp : list A) (h : list Z) (w w' : dwalker A),
    0 < c_delta c -> 0 < c_first c -> walker_ok (rep_count c) c off nhyp hyp h w ->
    birth_try (rep_grow c off v) nhyp off w = Some (Some w') ->
    walker_ok (rep_count c) c off nhyp hyp h w' /\ d_ncomp (dw_model w') = d_ncomp (dw_model w) + 1.
Proof.
  intros A c off nhyp v hyp h w w' Hd Hf (I & Ea & Lh & Fh & Ef) B.
  unfold birth_try in B. rewrite Ea in B. rewrite app_length, Lh, Nat.add_sub in B.
  rewrite firstn_app, Nat.sub_diag, firstn_all, app_nil_r in B.
  rewrite skipn_app, Nat.sub_diag, skipn_all2 in B by lia. cbn [app skipn] in B.
  replace (mkD _ _ _ _) with (dw_model w) in B by (destruct (dw_model w); reflexivity).
  destruct (rep_grow c off v (dw_model w)) as [[m1 [|]]|] eqn:G; try discriminate.
  destruct (rep_grow_ok c off v _ _ _ Hd Hf I G) as [I' _].
  destruct I as (W & C & L & K).
  assert (D : exists d, 0 < d /\ grow_by d off v (dw_model w) = Some m1).
  { unfold rep_grow in G. destruct (negb (c_dyna c)); [discriminate|]. destruct (at_max _ _); [discriminate|].
    destruct (grow_by _ _ _ _) as [t|] eqn:X; [|discriminate]. injection G as <-. eexists. split; [|exact X].
    destruct (0 <? d_ncomp (dw_model w)); auto. }
  destruct D as (d & D0 & D). pose proof D as D'. apply grow_by_spec in D'; auto.
  destruct D' as (E1 & E2 & E3 & E4 & _ & E5 & E6).
  rewrite E2 in B. replace (Z.of_nat (d_npbase (dw_model w) + d) - Z.of_nat (d_npbase (dw_model w)))%Z with (Z.of_nat d) in B by lia.
  rewrite Ef in B.
  assert (Gf : good_fit (length (d_pars (dw_model w))) (length hyp) (map Z.of_nat (seq 0 (d_npchain (dw_model w)))) h).
  { rewrite L, Lh. now apply full_good. }
  assert (Ap : alterParameters (d_pars (dw_model w)) (d_npbase (dw_model w)) (Z.of_nat d) off v = Some (d_pars m1)).
  { unfold grow_by in D. destruct (alterParameters _ _ _ _ _); [|discriminate]. injection D as <-. reflexivity. }
  destruct v as [|v0 v']; [simpl in E5; lia|].
  destruct (C14_grow A v0 _ hyp _ h _ _ _ _ _ D0 Gf Ap) as (f' & a & b & F1 & _ & _ & _ & _ & F6).
  rewrite F1 in B. injection B as <-. split; [|cbn; lia]. split; [exact I'|]. split; [reflexivity|].
  split; [exact Lh|]. split; [exact Fh|]. cbn. rewrite F6, <- E3; [reflexivity|].
  rewrite map_length, seq_length. auto.
Qed.
Print Assumptions C15_birth_keeps_walker.

Theorem C15_death_keeps_walker :
  forall (A : Type) (c : dconf) (off nhyp : nat) (shuf : list A -> list A) (hyp : list A) (h : list Z)
    (w w' : dwalker A),
    walker_ok (rep_count c) c off nhyp hyp h w ->
    (exists p, shuf (dw_allpars w) = p ++ hyp /\ length p = d_npchain (dw_model w)) ->
    death_try shuf (rep_shrink c off) nhyp off w = Some (Some w') ->
    walker_ok (rep_count c) c off nhyp hyp h w' /\ d_ncomp (dw_model w') + 1 = d_ncomp (dw_model w).
Proof.
  intros A c off nhyp shuf hyp h w w' (I & Ea & Lh & Fh & Ef) (p & Es & Lp) B.
  unfold death_try in B. rewrite Es in B. rewrite app_length, Lh, Nat.add_sub in B.
  rewrite firstn_app, Nat.sub_diag, firstn_all, app_nil_r in B.
  rewrite skipn_app, Nat.sub_diag, skipn_all2 in B by lia. cbn [app skipn] in B.
  set (m0 := mkD (d_ncomp (dw_model w)) (d_npbase (dw_model w)) (d_npchain (dw_model w)) p) in *.
  assert (I0 : dyn_ok (rep_count c) c off m0).
  { destruct I as (W & C & L & K). repeat split; cbn; auto; apply W. }
  destruct (rep_shrink c off m0) as [[m1 [|]]|] eqn:G; try discriminate.
  destruct (rep_shrink_ok c off _ _ _ I0 G) as [I' _].
  assert (D : exists d, shrink_by d off m0 = Some m1 /\ 0 < d_ncomp m0).
  { unfold rep_shrink in G. destruct (negb (c_dyna c) || (d_ncomp m0 <=? c_min c)) eqn:Y; [discriminate|].
    apply orb_false_iff in Y. destruct Y as [_ Y]. apply Nat.leb_gt in Y.
    destruct (shrink_by _ _ _) as [t|] eqn:X; [|discriminate]. injection G as <-. eexists. split; [exact X|lia]. }
  destruct D as (d & D & Dn). pose proof D as D'. destruct I0 as (W & C & L & K).
  apply shrink_by_spec in D'; auto.
  destruct D' as (E1 & E2 & E3 & E4 & _ & E5 & E6).
  replace (Z.of_nat (d_npbase m1) - Z.of_nat (d_npbase (dw_model w)))%Z with (- Z.of_nat d)%Z in B by (rewrite E2; cbn in *; lia).
  rewrite Ef in B.
  assert (Gf : good_fit (length (d_pars m0)) (length hyp) (map Z.of_nat (seq 0 (d_npchain (dw_model w)))) h).
  { rewrite L, Lh. now apply full_good. }
  assert (Ap : alterParameters (d_pars m0) (d_npbase m0) (- Z.of_nat d) off [] = Some (d_pars m1)).
  { unfold shrink_by in D. destruct (alterParameters _ _ _ _ _); [|discriminate]. injection D as <-. reflexivity. }
  assert (X : exists f', alterFitindex (map Z.of_nat (seq 0 (d_npchain (dw_model w))) ++ h)
                (d_npbase (dw_model w)) (- Z.of_nat d) off = Some (f' ++ h) /\
                f' = map Z.of_nat (seq 0 (length (d_pars m1)))).
  { destruct p as [|x p'] eqn:Hp.
    - assert (Z0 : d_npchain (dw_model w) = 0) by (rewrite <- Lp; reflexivity).
      assert (Zb : d_npbase (dw_model w) = 0) by (cbn in K; lia).
      assert (Zo : off = 0) by (cbn in K; lia).
      assert (Zd : d = 0) by (cbn in E3; lia). subst d. rewrite Z0, Zb, Zo.
      exists []. split.
      + unfold alterFitindex. cbn [Z.of_nat Z.opp Nat.add Z.ltb Z.compare seq map app Z.add Z.to_nat].
        assert (Cf : copy_first 0 h = ([], h)).
        { destruct (copy_first 0 h) as [a b] eqn:Ec. apply copy_first_spec in Ec. destruct Ec as (-> & Fa & _).
          destruct a as [|y a]; [reflexivity|]. inversion Fa; lia. }
        rewrite Cf. cbn [length Nat.ltb Nat.leb skipn app]. f_equal.
        rewrite <- (map_id h) at 2. apply map_ext_Forall. eapply Forall_impl; [|exact Fh]. simpl. intros y Hy.
        destruct (0 <=? y)%Z eqn:Ey; auto. apply Z.leb_le in Ey. lia.
      + rewrite E6. cbn. rewrite Zb, Zo. reflexivity.
    - assert (Hin : forall i, off + d_npbase m0 - d <= i < off + d_npbase m0 ->
                In (Z.of_nat i) (map Z.of_nat (seq 0 (d_npchain (dw_model w))))).
      { intros i Hi. apply in_map. apply in_seq. cbn in Hi, K. lia. }
      destruct (C14_shrink A x _ hyp _ h _ _ _ _ _ Gf Hin Ap) as (f' & a & cc & F1 & _ & _ & _ & _ & F6).
      exists f'. split; [exact F1|]. apply F6. rewrite map_length, seq_length. auto. }
  destruct X as (f' & F1 & F6). rewrite F1 in B. injection B as <-. split.
  - split; [exact I'|]. split; [reflexivity|]. split; [exact Lh|]. split; [exact Fh|]. cbn. now rewrite F6, <- E4.
  - cbn. rewrite E1. cbn in *. lia.
Qed.
Print Assumptions C15_death_keeps_walker.

Example C15_walker_met :
  let c := mkC 1 (Some 3) 2 3 true in
  walker_ok (rep_count c) c 1 1 [99] [-1]%Z
    (mkDW (mkD 1 3 5 [10;0;1;2;20]) [10;0;1;2;20;99] [0;1;2;3;4;-1]%Z).
Proof. repeat split; cbn; auto; try lia. repeat constructor; lia. Qed.

(** C16: shuffling keeps the value of the repeating model, for every base model [f] (its
    result at one x as a function of its parameters), every layout of shared parameters, every
    position in a chain and every permutation; shared parameters and those of other models in
    the chain are not touched. *)
Theorem C16_shuffle_keeps_value :
  forall (f : list R -> R) (off mnp : nat) (index : list nat) (n : nat) (per : list nat) (p : list R),
    0 < n -> NoDup index -> (forall i, In i index -> i < mnp) -> Permutation per (seq 0 n) ->
    let np := mnp + (n - 1) * length index in
    off + np <= length p ->
    let p' := rep_shuffle 0%R off mnp index n per p in
    rep_result f mnp index n (slice off (off + np) p') = rep_result f mnp index n (slice off (off + np) p).
Proof.
  intros f off mnp index n per p Hn N Hi Hp np L p'. destruct n as [|[|n]]; [lia|reflexivity|].
  apply shuffle_value; auto. lia.
Qed.
Print Assumptions C16_shuffle_keeps_value.

Theorem C16_only_own_free_parameters :
  forall (A : Type) (d : A) (off mnp : nat) (index : list nat) (n : nat) (per : list nat) (p : list A),
    NoDup index -> (forall i, In i index -> i < mnp) -> Permutation per (seq 0 n) ->
    off + mnp + (n - 1) * length index <= length p ->
    let p' := rep_shuffle d off mnp index n per p in
    length p' = length p /\
    forall k, (k < off \/ off + mnp + (n - 1) * length index <= k \/
               (off <= k < off + mnp /\ ~ In (k - off) index)) -> nth k p' d = nth k p d.
Proof.
  intros A d off mnp index n per p N Hi Hp L p'. destruct (le_lt_dec n 1) as [H1|H1].
  { unfold p', rep_shuffle. destruct (n <=? 1) eqn:E; [auto|apply Nat.leb_gt in E; lia]. }
  destruct (shuffle_spec d off mnp index n H1 N Hi per Hp p L) as (S1 & _ & S3). split; [exact S1|].
  intros k Hk. apply S3. intros m s Hm Hs X.
  pose proof (slotpos_bound off mnp index n H1 Hi m s Hm Hs) as B. rewrite <- X in B. unfold slotpos in X.
  assert (Him : nth m index 0 < mnp) by (apply Hi; now apply nth_In).
  destruct (s <? n - 1).
  - destruct Hk as [Hk|[Hk|[Hk1 Hk2]]]; nia.
  - destruct Hk as [Hk|[Hk|[Hk1 Hk2]]]; try lia. apply Hk2.
    replace (k - off) with (nth m index 0) by lia. now apply nth_In.
Qed.
Print Assumptions C16_only_own_free_parameters.

(** C16: the value is the sum of the base model over the components. *)
Theorem C16_value_is_sum :
  forall (f : list R -> R) (mnp : nat) (index : list nat) (n : nat) (params : list R),
    NoDup index -> (forall i, In i index -> i < mnp) ->
    0 < n -> mnp + (n - 1) * length index <= length params ->
    rep_result f mnp index n params
    = rsum (map (fun j => f (component mnp index params j)) (seq 0 n)).
Proof. exact rep_result_spec. Qed.
Print Assumptions C16_value_is_sum.

Example C16_nontrivial :
  rep_shuffle 0 1 3 (rep_index 3 [1]) 3 [1;2;0] [99; 10;11;12; 20;22; 30;32; 98]
  = [99; 30;11;32; 10;12; 20;22; 98].
Proof. reflexivity. Qed.
