(** C54: the knots and parameters of a dynamic splines model. *)
From Coq Require Import List Arith ZArith Reals Bool Lra Lia.
From Verif Require Import M_Order M_Dynamic M_SplinesDyn.
Import ListNotations.
Local Open Scope R_scope.

(** Each knot is more than d above the one before. *)
Definition spaced (d : R) (ks : list R) : Prop :=
  forall k, (S k < length ks)%nat -> d < nth (S k) ks 0 - nth k ks 0.

(** The model is in order: at least 2 spaced knots; npbase is the number of knots + o - 1, where o is the order of the
    splines, or 0 when the border is periodic; its parameters are those from off on in the chain, which has as many as the head
    says; the basis is made of the present knots. *)
Definition good {B} (mb : nat -> list R -> nat -> option B) (d : R) (o off : nat) (s : sds) : Prop :=
  (2 <= length (s_knots s))%nat /\ spaced d (s_knots s) /\
  (s_npbase s + 1 = length (s_knots s) + o)%nat /\
  length (s_pars s) = s_npchain s /\ (off + s_npbase s <= s_npchain s)%nat /\
  mb (s_border s) (s_knots s) (s_npbase s) = Some (s_basis s).

Lemma upd_length {A} : forall (l : list A) i x, length (upd i x l) = length l.
Proof. induction l; destruct i; intros; simpl; auto. Qed.
Lemma upd_split {A} : forall (l : list A) i x, (i < length l)%nat -> upd i x l = firstn i l ++ x :: skipn (S i) l.
Proof. induction l; destruct i; simpl; intros; try lia; auto. rewrite IHl by lia. reflexivity. Qed.
Lemma upd_nth {A} : forall (l : list A) i j x d, (i < length l)%nat ->
  nth j (upd i x l) d = if (j =? i)%nat then x else nth j l d.
Proof. induction l; destruct i, j; simpl; intros; try lia; auto. apply IHl. lia. Qed.

Lemma skip_skip {A} : forall j m (l : list A), skipn m (skipn j l) = skipn (j + m) l.
Proof. induction j; intros; [reflexivity|]. destruct l; [destruct m; reflexivity|]. exact (IHj m l). Qed.

Lemma nth_ins {A} : forall k (l : list A) x j d, (k <= length l)%nat ->
  nth j (firstn k l ++ x :: skipn k l) d
  = if (j <? k)%nat then nth j l d else if (j =? k)%nat then x else nth (j - 1) l d.
Proof.
  induction k; intros l x j d H.
  - simpl. destruct j; simpl; auto. rewrite Nat.sub_0_r. reflexivity.
  - destruct l as [|y l]; [simpl in H; lia|]. simpl firstn. simpl skipn.
    destruct j as [|j]; [reflexivity|].
    cbn [app nth]. rewrite IHk by (simpl in H; lia).
    change (S j <? S k)%nat with (j <? k)%nat. change (S j =? S k)%nat with (j =? k)%nat.
    destruct (Nat.ltb_spec j k); auto. destruct (Nat.eqb_spec j k); auto.
    replace (S j - 1)%nat with (S (j - 1)) by lia. reflexivity.
Qed.
Lemma len_ins {A} : forall k (l : list A) x, (k <= length l)%nat -> length (firstn k l ++ x :: skipn k l) = S (length l).
Proof. intros. rewrite app_length, firstn_length. cbn [length]. rewrite skipn_length. lia. Qed.

Lemma nth_del {A} : forall k (l : list A) j d, (k < length l)%nat ->
  nth j (firstn k l ++ skipn (S k) l) d = if (j <? k)%nat then nth j l d else nth (S j) l d.
Proof.
  induction k; intros l j d H.
  - destruct l; [simpl in H; lia|]. simpl. destruct j; reflexivity.
  - destruct l as [|y l]; [simpl in H; lia|]. simpl firstn.
    destruct j as [|j]; [reflexivity|].
    change (skipn (S (S k)) (y :: l)) with (skipn (S k) l).
    cbn [app nth]. rewrite IHk by (simpl in H; lia).
    change (S j <? S k)%nat with (j <? k)%nat. destruct (j <? k)%nat; reflexivity.
Qed.
Lemma len_del {A} : forall k (l : list A), (k < length l)%nat -> length (firstn k l ++ skipn (S k) l) = (length l - 1)%nat.
Proof. intros. rewrite app_length, firstn_length, skipn_length. lia. Qed.

Lemma spaced_up : forall d ks i j, 0 <= d -> spaced d ks -> (i < j)%nat -> (j < length ks)%nat -> nth i ks 0 + d < nth j ks 0.
Proof.
  intros d ks i j D H. induction j; intros; [lia|].
  pose proof (H j H1). destruct (Nat.eq_dec i j); [subst; lra|].
  assert (nth i ks 0 + d < nth j ks 0) by (apply IHj; lia). lra.
Qed.

(** A knot put between two others, at more than d of both. *)
Lemma spaced_ins : forall d ks k x, spaced d ks -> (1 <= k < length ks)%nat ->
  d < x - nth (k - 1) ks 0 -> d < nth k ks 0 - x -> spaced d (firstn k ks ++ x :: skipn k ks).
Proof.
  intros d ks k x H Hk A C j Hj. rewrite len_ins in Hj by lia. rewrite !nth_ins by lia.
  destruct (Nat.ltb_spec (S j) k).
  - destruct (Nat.ltb_spec j k); try lia. apply H. lia.
  - destruct (Nat.eqb_spec (S j) k).
    + destruct (Nat.ltb_spec j k); try lia. replace j with (k - 1)%nat by lia. exact A.
    + destruct (Nat.ltb_spec j k); try lia. destruct (Nat.eqb_spec j k).
      * subst. replace (S k - 1)%nat with k by lia. exact C.
      * pose proof (H (j - 1)%nat ltac:(lia)). replace (S (j - 1)) with (S j - 1)%nat in H2 by lia. exact H2.
Qed.
Lemma spaced_del : forall d ks k, 0 <= d -> spaced d ks -> (1 <= k)%nat -> (S k < length ks)%nat -> spaced d (firstn k ks ++ skipn (S k) ks).
Proof.
  intros d ks k D H K1 K2 j Hj. rewrite len_del in Hj by lia. rewrite !nth_del by lia.
  destruct (Nat.ltb_spec (S j) k).
  - destruct (Nat.ltb_spec j k); try lia. apply H. lia.
  - destruct (Nat.ltb_spec j k).
    + pose proof (spaced_up d ks j (S (S j)) D H ltac:(lia) ltac:(lia)). lra.
    + apply H. lia.
Qed.
Lemma spaced_upd : forall d ks k x, spaced d ks -> (1 <= k)%nat -> (S k < length ks)%nat ->
  d < x - nth (k - 1) ks 0 -> d < nth (S k) ks 0 - x -> spaced d (upd k x ks).
Proof.
  intros d ks k x H K1 K2 A C j Hj. rewrite upd_length in Hj. rewrite !upd_nth by lia.
  destruct (Nat.eqb_spec (S j) k).
  - destruct (Nat.eqb_spec j k); try lia. replace j with (k - 1)%nat by lia. exact A.
  - destruct (Nat.eqb_spec j k); [subst; exact C|]. apply H. lia.
Qed.

Lemma place_ok : forall ks x fuel k k', place fuel k ks x = Some k' ->
  (k <= k' < length ks)%nat /\ x <= nth k' ks 0 /\ forall j, (k <= j < k')%nat -> nth j ks 0 < x.
Proof.
  induction fuel; simpl; intros; [discriminate|].
  destruct (Nat.ltb_spec k (length ks)); [|discriminate].
  unfold kn in H. destruct (Rlt_dec (nth k ks 0) x).
  - destruct (IHfuel _ _ H) as (X & Y & Z). split; [lia|]. split; auto.
    intros. destruct (Nat.eq_dec j k); [subst; auto|]. apply Z. lia.
  - inversion H; subst. split; [lia|]. split; [lra|]. intros. lia.
Qed.
Lemma place_some : forall ks x fuel k, (1 <= length ks)%nat -> x <= nth (length ks - 1) ks 0 ->
  (k < length ks)%nat -> (length ks - k <= fuel)%nat -> exists k', place fuel k ks x = Some k'.
Proof.
  induction fuel; intros k L X K F; [lia|]. simpl.
  destruct (Nat.ltb_spec k (length ks)); [|lia].
  unfold kn. destruct (Rlt_dec (nth k ks 0) x); [|eexists; reflexivity].
  destruct (Nat.eq_dec k (length ks - 1)); [subst; lra|].
  apply IHfuel; auto; lia.
Qed.

Lemma newKnot_found : forall d rnd ks fuel i k x, newKnot d fuel rnd i ks = Found k x ->
  (1 <= k < length ks)%nat /\ d < x - nth (k - 1) ks 0 /\ d < nth k ks 0 - x.
Proof.
  induction fuel; simpl; intros; [discriminate|].
  destruct (place _ _ _ _) eqn:E in H; [|discriminate].
  apply place_ok in E. destruct E as (E1 & _).
  unfold kn in H. destruct (Rlt_dec _ _) in H; [|eauto]. destruct (Rlt_dec _ _) in H; [|eauto].
  inversion H; subst. auto.
Qed.
Lemma newKnot_index : forall d rnd ks fuel i, 0 <= d -> spaced d ks -> (2 <= length ks)%nat ->
  (forall i, 0 <= rnd i < 1) -> newKnot d fuel rnd i ks <> NoIndex.
Proof.
  intros d rnd ks fuel i D S L R. revert i. induction fuel; simpl; intros; [discriminate|].
  destruct (place_some ks (rnd i * (kn ks (length ks - 1) - kn ks 0) + kn ks 0) (length ks) 1) as (k & E); try lia.
  - unfold kn. pose proof (spaced_up d ks 0 (length ks - 1) D S ltac:(lia) ltac:(lia)).
    specialize (R i). nra.
  - rewrite E. destruct (Rlt_dec _ _); auto. destruct (Rlt_dec _ _); auto. discriminate.
Qed.

Lemma loc_ok : forall o npb nk k, (npb + 1 = nk + o)%nat -> (1 <= k)%nat ->
  location npb nk k = (k + (o + 1) / 2)%nat.
Proof.
  intros. unfold location.
  replace (Z.of_nat npb - Z.of_nat nk)%Z with (Z.of_nat (o + 1) + (-1) * 2)%Z by lia.
  rewrite Z.div_add by lia.
  pose proof (Nat2Z.inj_div (o + 1) 2) as Q. change (Z.of_nat 2) with 2%Z in Q. rewrite <- Q. lia.
Qed.

Lemma half_le : forall o, ((o + 1) / 2 <= o)%nat.
Proof.
  intros. pose proof (Nat.div_mod (o + 1) 2 ltac:(lia)). pose proof (Nat.mod_upper_bound (o + 1) 2 ltac:(lia)).
  destruct o; [simpl; lia|]. lia.
Qed.

Lemma alter_ins : forall (p : list R) loc off v, (off + loc <= length p)%nat -> (1 <= off + loc)%nat ->
  alterParameters (upd (loc + off - 1) v p) loc 1 off [v]
  = Some (firstn (off + loc - 1) p ++ v :: v :: skipn (off + loc) p).
Proof.
  intros p loc off v H H0. unfold alterParameters. change (0 <? 1)%Z with true. cbv iota.
  rewrite upd_length. change (Z.to_nat 1) with 1%nat.
  destruct (Nat.ltb_spec (length p) (off + loc)); [lia|]. simpl orb. cbv iota. f_equal.
  rewrite upd_split by lia. replace (loc + off - 1)%nat with (off + loc - 1)%nat by lia.
  set (j := (off + loc - 1)%nat). replace (off + loc)%nat with (S j) by (unfold j; lia).
  assert (J : (j < length p)%nat) by (unfold j; lia).
  assert (L : length (firstn j p) = j) by (rewrite firstn_length; lia).
  rewrite firstn_app, L. replace (S j - j)%nat with 1%nat by lia.
  rewrite firstn_all2 by (rewrite L; lia). simpl firstn.
  rewrite skipn_app, L. replace (S j - j)%nat with 1%nat by lia.
  rewrite skipn_all2 by (rewrite L; lia).
  rewrite <- app_assoc. reflexivity.
Qed.

Lemma alter_del : forall (p : list R) loc off v, (off + loc + 1 <= length p)%nat -> (1 <= loc)%nat ->
  exists q, alterParameters p loc (-1) off [] = Some q /\
  upd (off + loc - 1) v q = firstn (off + loc - 1) p ++ v :: skipn (off + loc + 1) p.
Proof.
  intros p loc off v H H0. unfold alterParameters. change (0 <? -1)%Z with false. cbv iota.
  change (Z.to_nat (- -1)) with 1%nat.
  destruct (Nat.ltb_spec loc 1); [lia|]. destruct (Nat.ltb_spec (length p) (off + loc)); [lia|].
  eexists. split; [reflexivity|].
  set (j := (off + loc - 1)%nat). replace (off + loc + 1)%nat with (S (S j)) by (unfold j; lia).
  replace (off + loc)%nat with (S j) by (unfold j; lia).
  assert (J : (S j < length p)%nat) by (unfold j; lia).
  assert (L : length (firstn j p) = j) by (rewrite firstn_length; lia).
  rewrite upd_split by (rewrite app_length, L, skipn_length; lia).
  rewrite firstn_app, L, Nat.sub_diag, firstn_O, app_nil_r, firstn_all2 by (rewrite L; lia). f_equal. f_equal.
  rewrite skipn_app, L. replace (S j - j)%nat with 1%nat by lia. rewrite skipn_all2 by (rewrite L; lia).
  simpl app.
  clear. revert p. induction j; intros; [destruct p as [|? [|? ?]]; reflexivity|].
  destruct p; [reflexivity|]. exact (IHj p).
Qed.

Section Dyn.
  Context {B : Type} (mb : nat -> list R -> nat -> option B).
  Context (minK : nat) (maxK : option nat) (d : R) (priors : list limits) (next : nat -> option limits).
  Notation grow := (grow mb maxK d).
  Notation shrink := (shrink mb minK priors next).
  Notation vary := (vary mb d).
  Notation varyAlt := (varyAlt mb minK maxK d priors next).

  (** grow puts one knot between two others, at more than the minimum distance from both; the parameter at the same place is
      multiplied by 0.7 and doubled; the rest is as it was, and the model is in order again, with no more knots than allowed
      unless it was forced to. *)
  Theorem C54_grow : forall o off fuel rnd force s s',
    good mb d o off s -> grow fuel rnd off force s = Return s' true ->
    good mb d o off s' /\
    s_border s' = s_border s /\ s_npchain s' = S (s_npchain s) /\
    (exists k x, (1 <= k < length (s_knots s))%nat /\
       s_knots s' = firstn k (s_knots s) ++ x :: skipn k (s_knots s) /\
       d < x - nth (k - 1) (s_knots s) 0 /\ d < nth k (s_knots s) 0 - x /\
       let j := (off + k + (o + 1) / 2 - 1)%nat in
       let v := nth j (s_pars s) 0 * (7 / 10) in
       (off <= j < off + s_npbase s)%nat /\
       s_pars s' = firstn j (s_pars s) ++ v :: v :: skipn (S j) (s_pars s)) /\
    (force = false -> forall m, maxK = Some m -> (length (s_knots s') <= m)%nat).
  Proof.
    intros o off fuel rnd force s s' (G1 & G2 & G3 & G4 & G5 & G6) H. unfold M_SplinesDyn.grow in H.
    destruct (negb force && match maxK with Some m => (m <=? length (s_knots s))%nat | None => false end) eqn:Emax;
      [discriminate|].
    destruct (newKnot d fuel rnd 0 (s_knots s)) as [k x| |] eqn:E; try discriminate.
    apply newKnot_found in E. destruct E as (K & E1 & E2).
    destruct (mb _ _ _) as [b|] eqn:Eb in H; [|discriminate].
    rewrite (loc_ok o) in H by lia.
    set (loc := (k + (o + 1) / 2)%nat) in *.
    pose proof (half_le o) as HL.
    rewrite alter_ins in H by (unfold loc; lia).
    inversion H; subst s'; clear H. cbn [s_knots s_border s_npbase s_basis s_npchain s_pars].
    assert (Lk : length (firstn k (s_knots s) ++ x :: skipn k (s_knots s)) = S (length (s_knots s))) by (apply len_ins; lia).
    split; [|split; [reflexivity|split; [reflexivity|split]]].
    - unfold good. cbn [s_knots s_border s_npbase s_basis s_npchain s_pars]. rewrite Lk.
      split; [lia|]. split; [apply spaced_ins; auto|]. split; [lia|]. split; [|split; [lia|exact Eb]].
      rewrite app_length. cbn [length]. rewrite firstn_length, skipn_length. unfold loc. lia.
    - exists k, x. split; [lia|]. split; [reflexivity|]. split; [auto|]. split; [auto|].
      cbv zeta. split; [lia|].
      unfold loc. replace (k + (o + 1) / 2 + off - 1)%nat with (off + k + (o + 1) / 2 - 1)%nat by lia.
      replace (off + (k + (o + 1) / 2) - 1)%nat with (off + k + (o + 1) / 2 - 1)%nat by lia.
      replace (off + (k + (o + 1) / 2))%nat with (S (off + k + (o + 1) / 2 - 1)) by lia.
      reflexivity.
    - intros F m M. rewrite Lk. subst force. rewrite M in Emax. simpl in Emax. apply Nat.leb_gt in Emax. lia.
  Qed.

  (** A model in order: grow does not raise; when it returns False there are maxKnots knots and nothing is changed, or the basis
      could not be made; when it does not return, none of the numbers drawn gives a place far enough from all knots. *)
  Theorem C54_grow_otherwise : forall o off fuel rnd force s,
    0 <= d -> good mb d o off s -> (forall i, 0 <= rnd i < 1) ->
    match grow fuel rnd off force s with
    | Return s' true => True
    | Return s' false =>
        (s' = s /\ force = false /\ exists m, maxK = Some m /\ (m <= length (s_knots s))%nat) \/
        mb (s_border s) (s_knots s') (S (s_npbase s)) = None
    | Raise _ => False
    | Forever =>
        forall i, (i < fuel)%nat ->
          let x := nth 0 (s_knots s) 0 + rnd i * (nth (length (s_knots s) - 1) (s_knots s) 0 - nth 0 (s_knots s) 0) in
          exists k, (k < length (s_knots s))%nat /\ Rabs (x - nth k (s_knots s) 0) <= d
    end.
  Proof.
    intros o off fuel rnd force s D (G1 & G2 & G3 & G4 & G5 & G6) HR. unfold M_SplinesDyn.grow.
    destruct (negb force && match maxK with Some m => (m <=? length (s_knots s))%nat | None => false end) eqn:Emax.
    { left. apply andb_prop in Emax. destruct Emax as [Ef Em]. split; [reflexivity|].
      split; [destruct force; [discriminate|reflexivity]|].
      destruct maxK as [m|]; [|discriminate]. exists m. split; [reflexivity|]. apply Nat.leb_le. exact Em. }
    destruct (newKnot d fuel rnd 0 (s_knots s)) as [k x| |] eqn:E.
    - apply newKnot_found in E. destruct E as (K & E1 & E2).
      clear G6. destruct (mb _ _ _) as [b|] eqn:Eb; [|exact (or_intror Eb)].
      rewrite (loc_ok o) by lia. pose proof (half_le o) as HL.
      rewrite alter_ins by lia. exact Logic.I.
    - exact (newKnot_index d rnd (s_knots s) fuel 0 D G2 G1 HR E).
    - assert (Q : forall i0, newKnot d fuel rnd i0 (s_knots s) = NotFound -> forall i, (i0 <= i < i0 + fuel)%nat ->
          let x := nth 0 (s_knots s) 0 + rnd i * (nth (length (s_knots s) - 1) (s_knots s) 0 - nth 0 (s_knots s) 0) in
          exists k, (k < length (s_knots s))%nat /\ Rabs (x - nth k (s_knots s) 0) <= d).
      { clear E. induction fuel; intros i0 E i Hi; [lia|]. simpl in E.
        destruct (place _ _ _ _) as [k|] eqn:P in E; [|discriminate].
        apply place_ok in P. destruct P as (P1 & P2 & P3). unfold kn in *.
        set (x := nth 0 (s_knots s) 0 + rnd i * (nth (length (s_knots s) - 1) (s_knots s) 0 - nth 0 (s_knots s) 0)).
        set (y := rnd i0 * (nth (length (s_knots s) - 1) (s_knots s) 0 - nth 0 (s_knots s) 0) + nth 0 (s_knots s) 0) in *.
        assert (Hcase : newKnot d fuel rnd (S i0) (s_knots s) = NotFound /\
                  (y - nth (k - 1) (s_knots s) 0 <= d \/ nth k (s_knots s) 0 - y <= d)).
        { destruct (Rlt_dec d (y - nth (k - 1) (s_knots s) 0)).
          - destruct (Rlt_dec d (nth k (s_knots s) 0 - y)); [discriminate|]. split; [exact E|right; lra].
          - split; [exact E|left; lra]. }
        destruct Hcase as [E' Hc].
        destruct (Nat.eq_dec i i0) as [->|Ne].
        2:{ apply (IHfuel (S i0) E' i). lia. }
        assert (Exy : x = y) by (unfold x, y; ring). rewrite Exy.
        assert (Hy0 : nth 0 (s_knots s) 0 <= y).
        { unfold y. pose proof (spaced_up d (s_knots s) 0 (length (s_knots s) - 1) D G2 ltac:(lia) ltac:(lia)).
          specialize (HR i0). nra. }
        assert (Hlow : nth (k - 1) (s_knots s) 0 <= y).
        { destruct (Nat.eq_dec k 1) as [->|K1]; [exact Hy0|]. left. apply P3. lia. }
        destruct Hc as [Hc|Hc].
        - exists (k - 1)%nat. split; [lia|]. rewrite Rabs_pos_eq; lra.
        - exists k. split; [lia|]. rewrite Rabs_left1; lra. }
      intros i Hi. apply (Q 0%nat E i). lia.
  Qed.

  (** The number that comes in the place of two parameters p0 and p1 when the knot t1, between t0 and t2, is taken out *)
  Definition merged (l : limits) (t0 t1 t2 p0 p1 v : R) : Prop :=
    let w := 1.4 * ((t1 - t0) / (t2 - t0) * p0 + (t2 - t1) / (t2 - t0) * p1) in
    let inside y := (forall a, lim_lo l = Some a -> a <= y) /\ (forall b, lim_hi l = Some b -> y <= b) in
    inside v /\
    (inside w -> v = w) /\
    (~ inside w -> exists c, v = (c + p0 + p1) / 3 /\
       ((exists a, lim_lo l = Some a /\ w < a /\ c = a) \/ (exists b, lim_hi l = Some b /\ b < w /\ c = b))).

  Lemma out_spec : forall l v, isOutOfLimits l v = false <->
    ((forall a, lim_lo l = Some a -> a <= v) /\ (forall b, lim_hi l = Some b -> v <= b)).
  Proof.
    intros [lo hi] v. unfold isOutOfLimits. cbn [lim_lo lim_hi].
    split.
    - intros H. apply orb_false_iff in H. destruct H as [H1 H2]. split.
      + intros a ->. destruct (Rlt_dec v a); [discriminate|lra].
      + intros b ->. destruct (Rlt_dec b v); [discriminate|lra].
    - intros [H1 H2]. apply orb_false_iff. split.
      + destruct lo as [a|]; auto. specialize (H1 a eq_refl). destruct (Rlt_dec v a); auto. lra.
      + destruct hi as [b|]; auto. specialize (H2 b eq_refl). destruct (Rlt_dec b v); auto. lra.
  Qed.

  Lemma stay_spec : forall l v, isOutOfLimits l v = true ->
    (exists a, lim_lo l = Some a /\ v < a /\ stayInLimits l v = a) \/ (exists b, lim_hi l = Some b /\ b < v /\ stayInLimits l v = b).
  Proof.
    intros [lo hi] v. unfold isOutOfLimits, stayInLimits. cbn [lim_lo lim_hi]. intros H.
    destruct lo as [a|].
    - destruct (Rlt_dec v a); [left; eauto|]. simpl in H.
      destruct hi as [b|]; [|discriminate]. destruct (Rlt_dec b v); [right; eauto|discriminate].
    - simpl in H. destruct hi as [b|]; [|discriminate]. destruct (Rlt_dec b v); [right; eauto|discriminate].
  Qed.

  (** shrink takes away one knot that is not at an end; the two parameters at its place become one, within the limits of its
      prior; the rest is as it was, and the model is in order again, with no less knots than allowed. *)
  Theorem C54_shrink : forall o off rint s s',
    0 <= d -> good mb d o off s -> (forall n, (0 < n)%nat -> (rint n < n)%nat) ->
    shrink rint off s = Return s' true ->
    good mb d o off s' /\
    s_border s' = s_border s /\ S (s_npchain s') = s_npchain s /\ (minK <= length (s_knots s'))%nat /\
    (exists k v l, (1 <= k)%nat /\ (S k < length (s_knots s))%nat /\
       s_knots s' = firstn k (s_knots s) ++ skipn (S k) (s_knots s) /\
       let j := (off + k + (o + 1) / 2 - 1)%nat in
       (off <= j < off + s_npbase s - 1)%nat /\
       getPrior priors next (s_npbase s) j = Some l /\
       ((j < s_npbase s)%nat -> (j < length priors)%nat -> nth_error priors j = Some l) /\
       merged l (nth (k - 1) (s_knots s) 0) (nth k (s_knots s) 0) (nth (S k) (s_knots s) 0)
              (nth j (s_pars s) 0) (nth (S j) (s_pars s) 0) v /\
       s_pars s' = firstn j (s_pars s) ++ v :: skipn (S (S j)) (s_pars s)).
  Proof.
    intros o off rint s s' D (G1 & G2 & G3 & G4 & G5 & G6) HR H. unfold M_SplinesDyn.shrink in H.
    destruct (Nat.leb_spec (length (s_knots s)) minK); [discriminate|].
    destruct (Nat.leb_spec (length (s_knots s)) 2); [discriminate|].
    remember (S (rint (length (s_knots s) - 2)%nat)) as k eqn:Ek.
    assert (K : (1 <= k)%nat /\ (S k < length (s_knots s))%nat).
    { rewrite Ek. specialize (HR (length (s_knots s) - 2)%nat). lia. }
    destruct K as [K1 K2].
    pose proof (half_le o) as HL.
    rewrite (loc_ok o) in H by lia.
    replace (off + (k + (o + 1) / 2) - 1)%nat with (off + k + (o + 1) / 2 - 1)%nat in H by lia.
    set (j := (off + k + (o + 1) / 2 - 1)%nat) in *.
    destruct (getPrior priors next (s_npbase s) j) as [l|] eqn:EP; [|discriminate].
    unfold kn in H. replace (k + 1)%nat with (S k) in H by lia.
    set (t0 := nth (k - 1) (s_knots s) 0) in *. set (t1 := nth k (s_knots s) 0) in *. set (t2 := nth (S k) (s_knots s) 0) in *.
    set (p0 := nth j (s_pars s) 0) in *. set (p1 := nth (S j) (s_pars s) 0) in *.
    set (w0 := 14 / 10 * (p0 * ((t1 - t0) / (t2 - t0)) + p1 * ((t2 - t1) / (t2 - t0)))) in *.
    set (v := if isOutOfLimits l w0 then (stayInLimits l w0 + p0 + p1) / 3 else w0) in *.
    destruct (isOutOfLimits l v) eqn:Ev; [discriminate|].
    destruct (mb _ _ _) as [b|] eqn:Eb in H; [|discriminate].
    destruct (alter_del (s_pars s) (k + (o + 1) / 2) off v) as (q & Q1 & Q2); [lia|lia|].
    rewrite Q1 in H. match type of H with Return ?a _ = _ => assert (Es : s' = a) by congruence end. subst s'; clear H. cbn [s_knots s_border s_npbase s_basis s_npchain s_pars].
    assert (Ej : (off + (k + (o + 1) / 2) - 1)%nat = j) by (unfold j; lia). rewrite Ej in Q2. rewrite Q2.
    replace (off + (k + (o + 1) / 2) + 1)%nat with (S (S j)) by (unfold j; lia).
    assert (Lk := len_del k (s_knots s) ltac:(lia)).
    split; [|split; [reflexivity|split; [lia|split; [rewrite Lk; lia|]]]].
    - unfold good. cbn [s_knots s_border s_npbase s_basis s_npchain s_pars]. rewrite Lk.
      split; [lia|]. split; [apply spaced_del; auto|]. split; [lia|]. split; [|split; [lia|exact Eb]].
      rewrite app_length. cbn [length]. rewrite firstn_length, skipn_length. unfold j. lia.
    - exists k, v, l. split; [auto|]. split; [auto|]. split; [reflexivity|]. cbv zeta. fold j. fold t0 t1 t2 p0 p1.
      split; [unfold j; lia|]. split; [exact EP|].
      split.
      { intros J1 J2. unfold getPrior in EP. apply Nat.ltb_lt in J1. rewrite J1 in EP.
        assert (EP' : exists q, Some (nth j priors q) = Some l) by (destruct priors; [discriminate|eexists; exact EP]).
        destruct EP' as (q9 & EP'). rewrite <- EP'. apply nth_error_nth'. exact J2. }
      split; [|reflexivity].
      unfold merged.
      assert (Ew : 1.4 * ((t1 - t0) / (t2 - t0) * p0 + (t2 - t1) / (t2 - t0) * p1) = w0).
      { unfold w0. replace 1.4 with (14 / 10) by lra. ring. }
      rewrite Ew. split; [apply out_spec; exact Ev|]. split.
      + intros I. apply out_spec in I. unfold v. rewrite I. reflexivity.
      + intros I. destruct (isOutOfLimits l w0) eqn:Eo; [|exfalso; apply I; apply out_spec; exact Eo].
        exists (stayInLimits l w0). split; [reflexivity|].
        destruct (stay_spec l w0 Eo) as [(a & A1 & A2 & A3)|(c & A1 & A2 & A3)]; [left; exists a|right; exists c]; auto.
  Qed.

  (** vary moves one knot that is not at an end; it stays between its neighbours, at more than the minimum distance; number of
      knots and parameters are as they were.  It returns False only when there is no such knot, or none is meant by location;
      then nothing is changed. *)
  Theorem C54_vary : forall o off fuel rnd rint loc s s' b,
    good mb d o off s -> (forall n, (0 < n)%nat -> (rint n < n)%nat) -> vary fuel rnd rint loc s = Return s' b ->
    if b then
      good mb d o off s' /\ s_border s' = s_border s /\ s_npbase s' = s_npbase s /\ s_npchain s' = s_npchain s /\
      s_pars s' = s_pars s /\
      (exists k x, (1 <= k)%nat /\ (S k < length (s_knots s))%nat /\ (forall l, loc = Some l -> k = l) /\
         s_knots s' = firstn k (s_knots s) ++ x :: skipn (S k) (s_knots s) /\
         d < x - nth (k - 1) (s_knots s) 0 /\ d < nth (S k) (s_knots s) 0 - x)
    else s' = s /\ (length (s_knots s) = 2 \/ loc = Some 0 \/ loc = Some (length (s_knots s)))%nat.
  Proof.
    intros o off fuel rnd rint loc s s' b (G1 & G2 & G3 & G4 & G5 & G6) HR H. unfold M_SplinesDyn.vary in H.
    destruct (Nat.leb_spec (length (s_knots s)) 2).
    { simpl in H. inversion H; subst. split; auto. left. lia. }
    rewrite orb_false_l in H.
    assert (NM : forall fuel i l r x y, moveKnot d fuel rnd i l r x = Some y -> d < y - l /\ d < r - y).
    { clear. induction fuel; cbn [moveKnot]; intros i l r x y H; [discriminate|]. cbv zeta in H.
      match type of H with (if Rlt_dec _ (?a - _) then _ else _) = _ => set (z := a) in * end.
      destruct (Rlt_dec d (z - l)); [|eauto]. destruct (Rlt_dec d (r - z)); [|eauto].
      inversion H; subst y. auto. }
    destruct (match loc with Some l => (l =? 0)%nat || (l =? length (s_knots s))%nat | None => false end) eqn:El.
    { inversion H; subst. split; auto. right. destruct loc as [l|]; [|discriminate].
      apply orb_prop in El. destruct El as [El|El]; apply Nat.eqb_eq in El; subst; auto. }
    remember (match loc with Some l => l | None => S (rint (length (s_knots s) - 2)%nat) end) as k eqn:Ek.
    destruct (Nat.leb_spec (length (s_knots s)) (k + 1)); [discriminate|].
    destruct (moveKnot _ _ _ _ _ _ _) as [x|] eqn:EM in H; [|discriminate].
    apply NM in EM. unfold kn in EM. replace (k + 1)%nat with (S k) in EM by lia.
    destruct (mb _ _ _) as [bs|] eqn:Eb in H; [|discriminate].
    inversion H; subst s' b; clear H. cbn [s_knots s_border s_npbase s_basis s_npchain s_pars].
    assert (K1 : (1 <= k)%nat).
    { rewrite Ek. destruct loc as [l|]; [|lia]. destruct l; [discriminate|lia]. }
    split; [|split; [reflexivity|split; [reflexivity|split; [reflexivity|split; [reflexivity|]]]]].
    - unfold good. cbn [s_knots s_border s_npbase s_basis s_npchain s_pars]. rewrite upd_length.
      repeat split; auto. apply spaced_upd; try lia; tauto.
    - exists k, x. split; [auto|]. split; [lia|]. split; [intros l ->; exact Ek|].
      split; [apply upd_split; lia|tauto].
  Qed.

  (** varyAlt leaves the number of knots as it was. *)
  Theorem C54_varyAlt : forall o off fuel rnd rint s s',
    0 <= d -> good mb d o off s -> (forall n, (0 < n)%nat -> (rint n < n)%nat) ->
    varyAlt fuel rnd rint off s = Return s' true ->
    good mb d o off s' /\ length (s_knots s') = length (s_knots s) /\ s_npbase s' = s_npbase s /\ s_npchain s' = s_npchain s /\
    nth 0 (s_knots s') 0 = nth 0 (s_knots s) 0 /\
    nth (length (s_knots s') - 1) (s_knots s') 0 = nth (length (s_knots s) - 1) (s_knots s) 0.
  Proof.
    intros o off fuel rnd rint s s' D G HR H. unfold M_SplinesDyn.varyAlt in H.
    destruct (M_SplinesDyn.grow mb maxK d fuel rnd off true s) as [s1 [|]| |] eqn:E; try discriminate.
    destruct (C54_grow o off fuel rnd true s s1 G E) as (G' & B1 & C1 & (k & x & K & E1 & E2 & E3 & _) & _).
    destruct (C54_shrink o off rint s1 s' D G' HR H) as (G'' & B2 & C2 & _ & (k' & v & l & K1 & K2 & F1 & _)).
    assert (Q1 : length (s_knots s1) = S (length (s_knots s))) by (rewrite E1; apply len_ins; lia).
    assert (Q2 : length (s_knots s') = length (s_knots s)) by (rewrite F1, len_del by lia; lia).
    split; [exact G''|]. split; [exact Q2|]. split.
    { destruct G as (_ & _ & A & _), G'' as (_ & _ & A' & _). lia. }
    split; [lia|]. rewrite Q2. rewrite F1, !nth_del by lia.
    destruct (Nat.ltb_spec 0 k'); [|lia]. destruct (Nat.ltb_spec (length (s_knots s) - 1) k'); [lia|].
    rewrite E1, !nth_ins by lia.
    destruct (Nat.ltb_spec 0 k); [|lia]. destruct (Nat.ltb_spec (S (length (s_knots s) - 1)) k); [lia|].
    destruct (Nat.eqb_spec (S (length (s_knots s) - 1)) k); [lia|].
    split; [reflexivity|]. f_equal. lia.
  Qed.

  (** Any number of calls of grow, shrink and vary, with any random numbers, that return True. *)
  Inductive run (off : nat) : @sds B -> @sds B -> Prop :=
  | run_stop : forall s, run off s s
  | run_grow : forall s s1 s2 fuel rnd, grow fuel rnd off false s = Return s1 true -> run off s1 s2 -> run off s s2
  | run_shrink : forall s s1 s2 rint, (forall n, (0 < n)%nat -> (rint n < n)%nat) ->
      shrink rint off s = Return s1 true -> run off s1 s2 -> run off s s2
  | run_vary : forall s s1 s2 fuel rnd rint loc, (forall n, (0 < n)%nat -> (rint n < n)%nat) ->
      vary fuel rnd rint loc s = Return s1 true -> run off s1 s2 -> run off s s2.

  Theorem C54_run : forall o off s s',
    0 <= d -> good mb d o off s -> (minK <= length (s_knots s))%nat -> (forall m, maxK = Some m -> (length (s_knots s) <= m)%nat) ->
    run off s s' ->
    good mb d o off s' /\ (minK <= length (s_knots s'))%nat /\ (forall m, maxK = Some m -> (length (s_knots s') <= m)%nat) /\
    nth 0 (s_knots s') 0 = nth 0 (s_knots s) 0 /\
    nth (length (s_knots s') - 1) (s_knots s') 0 = nth (length (s_knots s) - 1) (s_knots s) 0 /\
    (s_npchain s' - s_npbase s' = s_npchain s - s_npbase s)%nat /\
    firstn off (s_pars s') = firstn off (s_pars s) /\
    skipn (off + s_npbase s') (s_pars s') = skipn (off + s_npbase s) (s_pars s).
  Proof.
    intros o off s s' D G Hm HM Hr. revert G Hm HM. induction Hr; intros G Hm HM.
    - repeat split; auto; apply G.
    - destruct (C54_grow o off fuel rnd false s s1 G H) as (G' & B1 & C1 & (k & x & K & E1 & E2 & E3 & J & E4) & Max).
      assert (Q1 : length (s_knots s1) = S (length (s_knots s))) by (rewrite E1; apply len_ins; lia).
      destruct IHHr as (I1 & I2 & I3 & I4 & I5 & I6 & I7 & I8); auto; [lia|].
      assert (NB : s_npbase s1 = S (s_npbase s)).
      { destruct G as (_ & _ & A & _), G' as (_ & _ & A' & _). lia. }
      split; [auto|]. split; [auto|]. split; [auto|]. split; [|split; [|split; [|split]]].
      + rewrite I4, E1, nth_ins by lia. destruct (Nat.ltb_spec 0 k); [reflexivity|lia].
      + rewrite I5, Q1, E1, nth_ins by lia.
        destruct (Nat.ltb_spec (S (length (s_knots s)) - 1) k); [lia|].
        destruct (Nat.eqb_spec (S (length (s_knots s)) - 1) k); [lia|]. f_equal; lia.
      + rewrite I6. destruct G as (_ & _ & A & _ & A4 & _), G' as (_ & _ & A' & _). lia.
      + rewrite I7. set (j := (off + k + (o + 1) / 2 - 1)%nat) in *.
        rewrite E4. destruct G as (_ & _ & _ & A3 & A4 & _). rewrite firstn_app, firstn_firstn, firstn_length, A3.
        replace (off - Nat.min j (s_npchain s))%nat with 0%nat by lia. rewrite firstn_O, app_nil_r.
        f_equal. lia.
      + rewrite I8, NB. set (j := (off + k + (o + 1) / 2 - 1)%nat) in *. rewrite E4.
        destruct G as (_ & _ & _ & A3 & A4 & _).
        rewrite skipn_app, firstn_length, A3.
        rewrite skipn_all2 by (rewrite firstn_length; lia).
        replace (off + S (s_npbase s) - Nat.min j (s_npchain s))%nat with (S (S (off + s_npbase s - S j))) by lia.
        set (m := (off + s_npbase s - S j)%nat). cbn [app]. rewrite !skipn_cons.
        rewrite skip_skip. f_equal. unfold m. lia.
    - destruct (C54_shrink o off rint s s1 D G H H0) as (G' & B2 & C2 & Min & (k & v & l & K1 & K2 & F1 & J & _ & _ & _ & F4)).
      assert (Q2 : length (s_knots s1) = (length (s_knots s) - 1)%nat) by (rewrite F1, len_del by lia; lia).
      destruct IHHr as (I1 & I2 & I3 & I4 & I5 & I6 & I7 & I8); auto.
      { intros m M. specialize (HM m M). lia. }
      assert (NB : S (s_npbase s1) = s_npbase s).
      { destruct G as (_ & _ & A & _), G' as (_ & _ & A' & _). lia. }
      split; [auto|]. split; [auto|]. split; [auto|]. split; [|split; [|split; [|split]]].
      + rewrite I4, F1, nth_del by lia. destruct (Nat.ltb_spec 0 k); [reflexivity|lia].
      + rewrite I5, Q2, F1, nth_del by lia.
        destruct (Nat.ltb_spec (length (s_knots s) - 1 - 1) k); [lia|]. f_equal; lia.
      + rewrite I6. lia.
      + rewrite I7. set (j := (off + k + (o + 1) / 2 - 1)%nat) in *.
        rewrite F4. destruct G as (_ & _ & _ & A3 & A4 & _). rewrite firstn_app, firstn_firstn, firstn_length, A3.
        replace (off - Nat.min j (s_npchain s))%nat with 0%nat by lia. rewrite firstn_O, app_nil_r.
        f_equal. lia.
      + rewrite I8. set (j := (off + k + (o + 1) / 2 - 1)%nat) in *. rewrite F4, <- NB.
        destruct G as (_ & _ & _ & A3 & A4 & _).
        rewrite skipn_app, firstn_length, A3.
        rewrite skipn_all2 by (rewrite firstn_length; lia).
        replace (off + s_npbase s1 - Nat.min j (s_npchain s))%nat with (S (off + s_npbase s1 - S j)) by lia.
        set (m := (off + s_npbase s1 - S j)%nat). cbn [app]. rewrite !skipn_cons.
        rewrite skip_skip. f_equal. unfold m. lia.
    - pose proof (C54_vary o off fuel rnd rint loc s s1 true G H H0) as V. cbv iota in V.
      destruct V as (G' & B1 & N1 & N2 & P1 & (k & x & K1 & K2 & _ & E1 & _)).
      assert (U : s_knots s1 = upd k x (s_knots s)) by (rewrite upd_split by lia; exact E1).
      assert (Q1 : length (s_knots s1) = length (s_knots s)) by (rewrite U; apply upd_length).
      destruct IHHr as (I1 & I2 & I3 & I4 & I5 & I6 & I7 & I8); auto; [lia|intros; rewrite Q1; auto|].
      split; [auto|]. split; [auto|]. split; [auto|]. split; [|split; [|split; [|split]]].
      + rewrite I4, U, upd_nth by lia. destruct (Nat.eqb_spec 0 k); [lia|reflexivity].
      + rewrite I5, Q1, U, upd_nth by lia. destruct (Nat.eqb_spec (length (s_knots s) - 1) k); [lia|reflexivity].
      + rewrite I6, N1, N2. reflexivity.
      + rewrite I7, P1. reflexivity.
      + rewrite I8, P1, N1. reflexivity.
  Qed.

  (** copy of a model with open ends has the same knots, parameters and basis. *)
  Theorem C54_copy : forall o s, good mb d o 0 s -> s_border s = 0%nat -> copy s = Some s.
  Proof.
    intros o s (G1 & _) Hb. unfold copy. destruct (Nat.ltb_spec (length (s_knots s)) 2); [lia|].
    destruct s; cbn in *. subst. reflexivity.
  Qed.

  (** The copy of a periodic splines model is not periodic: border is not handed over, so the next grow, shrink or vary makes the
      basis of splines with open ends for it. *)
  Theorem C54_copy_refuted : forall o s, good mb d o 0 s -> s_border s <> 0%nat ->
    exists s', copy s = Some s' /\ s_border s' = 0%nat /\ s' <> s.
  Proof.
    intros o s (G1 & _) Hb. unfold copy. destruct (Nat.ltb_spec (length (s_knots s)) 2); [lia|].
    eexists. split; [reflexivity|]. split; [reflexivity|]. intros E. apply Hb. rewrite <- E. reflexivity.
  Qed.

  (** When no gap between two knots is more than twice the minimum distance, grow does not return, whatever is drawn. *)
  Theorem C54_endless_refuted : forall o off rnd force s,
    0 <= d -> good mb d o off s -> (forall i, 0 <= rnd i < 1) ->
    (force = true \/ maxK = None) ->
    (forall k, (S k < length (s_knots s))%nat -> nth (S k) (s_knots s) 0 - nth k (s_knots s) 0 <= 2 * d) ->
    forall fuel, grow fuel rnd off force s = Forever.
  Proof.
    intros o off rnd force s D (G1 & G2 & _) HR HF Hg fuel. unfold M_SplinesDyn.grow.
    replace (negb force && match maxK with Some m => (m <=? length (s_knots s))%nat | None => false end) with false
      by (destruct HF as [->| ->]; simpl; [reflexivity|destruct force; reflexivity]).
    pose proof (newKnot_index d rnd (s_knots s) fuel 0 D G2 G1 HR) as NI.
    destruct (newKnot d fuel rnd 0 (s_knots s)) as [k x| |] eqn:E; [|congruence|reflexivity].
    apply newKnot_found in E. destruct E as (K & E1 & E2).
    specialize (Hg (k - 1)%nat ltac:(lia)). replace (S (k - 1)) with k in Hg by lia. lra.
  Qed.

  (** When the basis can not be made, grow returns False, but there is one knot more, and the model says it has one parameter more
      than there are. *)
  Theorem C54_false_refuted : forall o off fuel rnd force s s',
    good mb d o off s -> (forall m, maxK = Some m -> (length (s_knots s) < m)%nat) ->
    grow fuel rnd off force s = Return s' false ->
    length (s_knots s') = S (length (s_knots s)) /\ s_npbase s' = S (s_npbase s) /\
    s_npchain s' = S (length (s_pars s')) /\ s_basis s' = s_basis s.
  Proof.
    intros o off fuel rnd force s s' (G1 & G2 & G3 & G4 & G5 & G6) HM H. unfold M_SplinesDyn.grow in H.
    destruct (negb force && match maxK with Some m => (m <=? length (s_knots s))%nat | None => false end) eqn:Emax.
    { apply andb_prop in Emax. destruct Emax as [_ Em]. destruct maxK as [m|]; [|discriminate].
      specialize (HM m eq_refl). apply Nat.leb_le in Em. lia. }
    destruct (newKnot d fuel rnd 0 (s_knots s)) as [k x| |] eqn:E; try discriminate.
    apply newKnot_found in E. destruct E as (K & E1 & E2).
    destruct (mb _ _ _) eqn:Eb in H.
    - destruct (alterParameters _ _ _ _ _); discriminate.
    - inversion H; subst. cbn [s_knots s_npbase s_npchain s_pars s_basis]. rewrite len_ins by lia. rewrite G4. auto.
  Qed.

  (** vary with the location of the last knot raises an IndexError; with the number of knots it returns False, as for the
      first knot. *)
  Theorem C54_last_refuted : forall o off fuel rnd rint s,
    good mb d o off s -> (2 < length (s_knots s))%nat ->
    vary fuel rnd rint (Some (length (s_knots s) - 1)%nat) s = Raise s /\
    vary fuel rnd rint (Some 0%nat) s = Return s false /\
    vary fuel rnd rint (Some (length (s_knots s))) s = Return s false.
  Proof.
    intros o off fuel rnd rint s _ L. unfold M_SplinesDyn.vary.
    destruct (Nat.leb_spec (length (s_knots s)) 2); [lia|]. rewrite !orb_false_l.
    split; [|split].
    - destruct (Nat.eqb_spec (length (s_knots s) - 1) 0); [lia|].
      destruct (Nat.eqb_spec (length (s_knots s) - 1) (length (s_knots s))); [lia|].
      simpl orb. cbv iota. destruct (Nat.leb_spec (length (s_knots s)) (length (s_knots s) - 1 + 1)); [reflexivity|lia].
    - reflexivity.
    - rewrite Nat.eqb_refl, orb_true_r. reflexivity.
  Qed.

  (** shrink of a model without priors raises an exception, and one knot is gone. *)
  Theorem C54_priors_refuted : forall o off rint s,
    good mb d o off s -> (minK < length (s_knots s))%nat -> (2 < length (s_knots s))%nat -> off = 0%nat ->
    (forall n, (0 < n)%nat -> (rint n < n)%nat) -> priors = [] ->
    exists s', shrink rint off s = Raise s' /\ S (length (s_knots s')) = length (s_knots s) /\
      s_npbase s' = s_npbase s /\ s_pars s' = s_pars s.
  Proof.
    intros o off rint s (G1 & G2 & G3 & G4 & G5 & G6) L1 L2 -> HR HP. unfold M_SplinesDyn.shrink.
    destruct (Nat.leb_spec (length (s_knots s)) minK); [lia|]. destruct (Nat.leb_spec (length (s_knots s)) 2); [lia|].
    remember (S (rint (length (s_knots s) - 2)%nat)) as k eqn:Ek.
    assert (K : (1 <= k)%nat /\ (S k < length (s_knots s))%nat).
    { rewrite Ek. specialize (HR (length (s_knots s) - 2)%nat). lia. }
    pose proof (half_le o). rewrite (loc_ok o) by lia.
    unfold getPrior. destruct (Nat.ltb_spec (0 + (k + (o + 1) / 2) - 1) (s_npbase s)); [|lia]. rewrite HP.
    eexists. split; [reflexivity|]. cbn [s_knots s_npbase s_pars]. rewrite len_del by lia. repeat split. lia.
  Qed.

  (** In a chain, shrink asks the splines model, and not the head of the chain, for the prior of a parameter with an index that
      counts from the head.  As the last model of a chain, after models with at least as many parameters as it has, shrink
      raises an IndexError, also when every parameter has a prior. *)
  Theorem C54_chain_refuted : forall o off rint s,
    good mb d o off s -> (minK < length (s_knots s))%nat -> (2 < length (s_knots s))%nat ->
    (forall n, (0 < n)%nat -> (rint n < n)%nat) -> (s_npbase s <= off)%nat -> (forall k, next k = None) ->
    exists s', shrink rint off s = Raise s' /\ S (length (s_knots s')) = length (s_knots s).
  Proof.
    intros o off rint s (G1 & G2 & G3 & G4 & G5 & G6) L1 L2 HR HO HN. unfold M_SplinesDyn.shrink.
    destruct (Nat.leb_spec (length (s_knots s)) minK); [lia|]. destruct (Nat.leb_spec (length (s_knots s)) 2); [lia|].
    remember (S (rint (length (s_knots s) - 2)%nat)) as k eqn:Ek.
    assert (K : (1 <= k)%nat /\ (S k < length (s_knots s))%nat).
    { rewrite Ek. specialize (HR (length (s_knots s) - 2)%nat). lia. }
    rewrite (loc_ok o) by lia.
    unfold getPrior. destruct (Nat.ltb_spec (off + (k + (o + 1) / 2) - 1) (s_npbase s)); [lia|]. rewrite HN.
    eexists. split; [reflexivity|]. cbn [s_knots]. rewrite len_del by lia. lia.
  Qed.
End Dyn.

(** ** A case: splines of order 1 on the knots 0, 1, 2 with minDistance 0.3, hence 0.2 (line 141); the basis is the list of knots
    itself. *)
Definition mb0 (border : nat) (ks : list R) (np : nat) : option (list R) := Some ks.
Definition s0 : @sds (list R) := mkS [0; 1; 2] 0 3 [0; 1; 2] 3 [1; 2; 3].

Example C54_start : minDist 0.3 (s_knots s0) = / 5 /\ good mb0 (/ 5) 1 0 s0.
Proof.
  split; [unfold minDist, kn; simpl; lra|].
  unfold good, s0. cbn [s_knots s_border s_npbase s_basis s_npchain s_pars length].
  repeat split; try lia.
  intros k Hk. cbn [length] in Hk. destruct k as [|[|k]]; simpl; lra || lia.
Qed.

(** rng.rand gives 0.5, too near to the knot 1, and then 0.75: a knot at 1.5. *)
Example C54_grow_example :
  grow mb0 (Some 4%nat) (/ 5) 2 (fun i => if (i =? 0)%nat then / 2 else 3 / 4) 0 false s0
  = Return (mkS [0; 1; 3 / 4 * (2 - 0) + 0; 2] 0 4 [0; 1; 3 / 4 * (2 - 0) + 0; 2] 4 [1; 2; 3 * (7 / 10); 3 * (7 / 10)]) true.
Proof.
  unfold grow, s0. simpl.
  unfold kn; simpl.
  repeat match goal with |- context [Rlt_dec ?a ?b] => let H := fresh in destruct (Rlt_dec a b) as [H|H]; simpl in H; try (exfalso; lra) end.
  reflexivity.
Qed.

(** randint gives 0: the knot 1 goes; 1.4 (1/2 2 + 1/2 3) = 3.5 comes in the place of 2 and 3. *)
Example C54_shrink_example :
  exists v, v = 3.5 /\
  shrink mb0 2 [mkLim (Some 0) (Some 10)] (fun _ => None) (fun _ => 0%nat) 0 s0
  = Return (mkS [0; 2] 0 2 [0; 2] 2 [1; v]) true.
Proof.
  unfold shrink, s0. simpl. unfold kn, isOutOfLimits, stayInLimits; simpl.
  repeat match goal with |- context [Rlt_dec ?a ?b] => let H := fresh in destruct (Rlt_dec a b) as [H|H]; simpl in H; try (exfalso; lra) end.
  all: try (exfalso; simpl in *; lra).
  simpl. eexists. split; [|reflexivity]. lra.
Qed.

(** rand gives 0.75 twice: rn = 0.5 and the knot goes from 1 to 1.5. *)
Example C54_vary_example :
  exists x, x = 1.5 /\
  vary mb0 (/ 5) 1 (fun _ => 3 / 4) (fun _ => 0%nat) None s0 = Return (mkS [0; x; 2] 0 3 [0; x; 2] 3 [1; 2; 3]) true.
Proof.
  unfold vary, s0. simpl. unfold kn; simpl.
  destruct (Rlt_dec (3 / 4 + 3 / 4 - 1) 0) as [H|_]; [exfalso; lra|].
  repeat match goal with |- context [Rlt_dec ?a ?b] => let H := fresh in destruct (Rlt_dec a b) as [H|H]; simpl in H; try (exfalso; lra) end.
  all: try (exfalso; simpl in *; lra).
  eexists. split; [|reflexivity]. lra.
Qed.

(** Constructed with minDistance = 1 the gaps 1 are less than twice 2/3: the first call of grow does not return. *)
Example C54_endless_example : forall rnd fuel, (forall i, 0 <= rnd i < 1) ->
  grow mb0 None (minDist 1 (s_knots s0)) fuel rnd 0 false s0 = Forever.
Proof.
  intros rnd fuel HR. unfold minDist, kn; simpl.
  apply (C54_endless_refuted mb0 None _ 1 0); auto; [lra| |].
  - unfold good, s0. cbn [s_knots s_border s_npbase s_basis s_npchain s_pars length].
    repeat split; try lia. intros k Hk. cbn [length] in Hk. destruct k as [|[|k]]; simpl; lra || lia.
  - intros k Hk. unfold s0 in *. cbn [s_knots length] in *. destruct k as [|[|k]]; simpl; lra || lia.
Qed.

(** A model of 4 parameters before it, and a prior for all parameters. *)
Example C54_chain_example :
  good mb0 (/ 5) 1 4 (mkS [0; 1; 2] 0 3 [0; 1; 2] 7 [5; 6; 7; 8; 1; 2; 3]) /\
  exists s', shrink mb0 2 [mkLim (Some 0) (Some 10)] (fun _ => None) (fun _ => 0%nat) 4
     (mkS [0; 1; 2] 0 3 [0; 1; 2] 7 [5; 6; 7; 8; 1; 2; 3]) = Raise s'.
Proof.
  split; [|eexists; reflexivity].
  unfold good. cbn [s_knots s_border s_npbase s_basis s_npchain s_pars length].
  repeat split; try lia. intros k Hk. cbn [length] in Hk. destruct k as [|[|k]]; simpl; lra || lia.
Qed.

Print Assumptions C54_grow. Print Assumptions C54_grow_otherwise. Print Assumptions C54_shrink. Print Assumptions C54_vary.
Print Assumptions C54_varyAlt. Print Assumptions C54_run. Print Assumptions C54_copy. Print Assumptions C54_copy_refuted.
Print Assumptions C54_endless_refuted. Print Assumptions C54_false_refuted. Print Assumptions C54_last_refuted.
Print Assumptions C54_priors_refuted. Print Assumptions C54_chain_refuted.
