(** Proofs about the model of Dynamic.py and RepeatingModel.py. *)
From Coq Require Import List Arith ZArith Reals Lia Lra Bool Permutation Sorted.
From Verif Require Import L_List M_Order P_Order M_Dynamic.
Import ListNotations.

Lemma SS_app' {A} (lt : A -> A -> Prop) l1 l2 : StronglySorted lt l1 -> StronglySorted lt l2 ->
  (forall a b, In a l1 -> In b l2 -> lt a b) -> StronglySorted lt (l1 ++ l2).
Proof.
  intros H1 H2 H. induction H1; simpl; auto. constructor.
  - apply IHStronglySorted. intros; apply H; simpl; auto.
  - apply Forall_app. split; auto. apply Forall_forall. intros; apply H; simpl; auto.
Qed.

Lemma full_index_from n : forall s f, StronglySorted Z.lt f ->
  Forall (fun x => Z.of_nat s <= x < Z.of_nat (s + n))%Z f -> length f = n ->
  f = map Z.of_nat (seq s n).
Proof.
  induction n as [|n IH]; intros s f So F L.
  - destruct f; [reflexivity|discriminate].
  - destruct f as [|x f]; [discriminate|]. inversion So as [|? ? S' Fx]; subst. inversion F; subst.
    simpl in L. injection L as L. simpl.
    assert (X : x = Z.of_nat s).
    { destruct (Z.eq_dec x (Z.of_nat s)); auto. exfalso.
      assert (G : forall n f y, StronglySorted Z.lt f -> Forall (fun z => y < z < Z.of_nat (s + S n))%Z f ->
                  (Z.of_nat s < y)%Z -> (length f <= Z.to_nat (Z.of_nat (s + S n) - 1 - y))%nat).
      { clear. intros n f. induction f as [|z f IH]; intros y So F Hy; simpl; [lia|].
        inversion So; subst. inversion F; subst.
        assert (length f <= Z.to_nat (Z.of_nat (s + S n) - 1 - z)).
        { apply IH; auto; [|lia]. rewrite Forall_forall in *. intros w Hw. specialize (H2 w Hw). specialize (H4 w Hw). lia. }
        lia. }
      specialize (G n f x S'). assert (length f <= Z.to_nat (Z.of_nat (s + S n) - 1 - x)).
      { apply G; [|lia]. rewrite Forall_forall in *. intros w Hw. specialize (Fx w Hw). specialize (H2 w Hw). lia. }
      lia. }
    subst x. f_equal. apply IH; auto.
    rewrite Forall_forall in *. intros w Hw. specialize (Fx w Hw). specialize (H2 w Hw). cbv beta in *. lia.
Qed.

Lemma full_index f n : StronglySorted Z.lt f -> Forall (fun x => 0 <= x < Z.of_nat n)%Z f -> length f = n ->
  f = map Z.of_nat (seq 0 n).
Proof. intros. apply full_index_from; auto. Qed.

(** ** alterParameters *)
Lemma alter_grow_spec {A} (p : list A) loc d off v q : (0 < d)%nat ->
  alterParameters p loc (Z.of_nat d) off v = Some q ->
  off + loc <= length p /\ length v = d /\ q = firstn (off + loc) p ++ v ++ skipn (off + loc) p.
Proof.
  intros Hd. unfold alterParameters.
  destruct (0 <? Z.of_nat d)%Z eqn:E; [|apply Z.ltb_ge in E; lia].
  rewrite Nat2Z.id. destruct (_ || _) eqn:F; [discriminate|]. apply orb_false_iff in F.
  destruct F as [F G]. apply Nat.ltb_ge in F. apply negb_false_iff, Nat.eqb_eq in G.
  intros H. injection H as <-. auto.
Qed.

Lemma alter_grow_some {A} (p : list A) loc d off v : (0 < d)%nat ->
  off + loc <= length p -> length v = d ->
  alterParameters p loc (Z.of_nat d) off v = Some (firstn (off + loc) p ++ v ++ skipn (off + loc) p).
Proof.
  intros Hd H1 H2. unfold alterParameters.
  destruct (0 <? Z.of_nat d)%Z eqn:E; [|apply Z.ltb_ge in E; lia].
  rewrite Nat2Z.id. destruct (length p <? off + loc) eqn:F; [apply Nat.ltb_lt in F; lia|].
  rewrite H2, Nat.eqb_refl. reflexivity.
Qed.

Lemma alter_shrink_spec {A} (p : list A) loc d off v q :
  alterParameters p loc (- Z.of_nat d) off v = Some q ->
  d <= loc /\ off + loc <= length p /\ q = firstn (off + loc - d) p ++ skipn (off + loc) p.
Proof.
  unfold alterParameters.
  destruct (0 <? - Z.of_nat d)%Z eqn:E; [apply Z.ltb_lt in E; lia|].
  rewrite Z.opp_involutive, Nat2Z.id. destruct (loc <? d) eqn:F; [discriminate|]. apply Nat.ltb_ge in F.
  destruct (length p <? off + loc) eqn:G; [discriminate|]. apply Nat.ltb_ge in G.
  intros H. injection H as <-. auto.
Qed.

Lemma alter_shrink_some {A} (p : list A) loc d off v : d <= loc -> off + loc <= length p ->
  alterParameters p loc (- Z.of_nat d) off v = Some (firstn (off + loc - d) p ++ skipn (off + loc) p).
Proof.
  intros H1 H2. unfold alterParameters.
  destruct (0 <? - Z.of_nat d)%Z eqn:E; [apply Z.ltb_lt in E; lia|].
  rewrite Z.opp_involutive, Nat2Z.id. destruct (loc <? d) eqn:F; [apply Nat.ltb_lt in F; lia|].
  destruct (length p <? off + loc) eqn:G; [apply Nat.ltb_lt in G; lia|]. reflexivity.
Qed.

(** ** alterFitindex *)
Lemma copy_first_spec kh f a b : copy_first kh f = (a, b) ->
  f = a ++ b /\ Forall (fun x => 0 <= x < kh)%Z a /\
  match b with [] => True | x :: _ => ~ (0 <= x < kh)%Z end.
Proof.
  revert a b; induction f as [|x f IH]; intros a b H; simpl in H.
  - injection H as <- <-. repeat split; constructor.
  - destruct ((0 <=? x)%Z && (x <? kh)%Z) eqn:E.
    + destruct (copy_first kh f) as [a' b'] eqn:F. injection H as <- <-.
      destruct (IH _ _ eq_refl) as (-> & Fa & Fb). repeat split; auto. constructor; auto.
      apply andb_true_iff in E. destruct E as [E1 E2]. apply Z.leb_le in E1. apply Z.ltb_lt in E2. lia.
    + injection H as <- <-. repeat split; [constructor|].
      apply andb_false_iff in E. destruct E as [E|E]; [apply Z.leb_gt in E|apply Z.ltb_ge in E]; lia.
Qed.

(** A fit index as NestedSampler.makeFitlist builds it: increasing non-negative indices below
    [np], followed by negative ones. *)
Definition good_fit (np : nat) (nhyp : nat) (f h : list Z) : Prop :=
  StronglySorted Z.lt f /\ Forall (fun x => 0 <= x < Z.of_nat np)%Z f /\
  Forall (fun x => - Z.of_nat nhyp <= x < 0)%Z h.

Lemma split_sorted kh f h a b : StronglySorted Z.lt f -> Forall (fun x => 0 <= x)%Z f ->
  Forall (fun x => x < 0)%Z h -> copy_first kh (f ++ h) = (a, b) ->
  exists fb, f = a ++ fb /\ b = fb ++ h /\ Forall (fun x => 0 <= x < kh)%Z a /\ Forall (fun x => kh <= x)%Z fb.
Proof.
  revert a b; induction f as [|x f IH]; intros a b S P N H.
  - simpl in H. exists []. simpl. destruct h as [|y h]; simpl in H.
    + injection H as <- <-. repeat split; constructor.
    + inversion N; subst. destruct (0 <=? y)%Z eqn:E; [apply Z.leb_le in E; lia|]. simpl in H.
      injection H as <- <-. repeat split; constructor.
  - inversion S as [|? ? S' Fx]; subst. inversion P; subst. simpl in H.
    destruct ((0 <=? x)%Z && (x <? kh)%Z) eqn:E.
    + destruct (copy_first kh (f ++ h)) as [a' b'] eqn:F. injection H as <- <-.
      destruct (IH _ _ S' H3 N eq_refl) as (fb & -> & -> & Fa & Fb). exists fb. repeat split; auto.
      constructor; auto. apply andb_true_iff in E. destruct E as [E1 E2].
      apply Z.leb_le in E1. apply Z.ltb_lt in E2. lia.
    + injection H as <- <-. exists (x :: f). repeat split; [constructor|].
      apply andb_false_iff in E. destruct E as [E|E]; [apply Z.leb_gt in E; lia|apply Z.ltb_ge in E].
      constructor; auto. eapply Forall_impl; [|exact Fx]. simpl. lia.
Qed.

(** numpy indexing p[i] with python's negative indices. *)
Definition pyget {A} (d : A) (p : list A) (i : Z) : A :=
  if (0 <=? i)%Z then nth (Z.to_nat i) p d else nth (Z.to_nat (Z.of_nat (length p) + i)) p d.

Lemma map_seq_ins {A} (d : A) (pre v post : list A) k : length pre = k ->
  map (pyget d (pre ++ v ++ post)) (map (fun i => (Z.of_nat k + Z.of_nat i)%Z) (seq 0 (length v))) = v.
Proof.
  intros <-. rewrite map_map.
  apply nth_ext with (d:=d) (d':=d); rewrite !map_length, seq_length; [reflexivity|].
  intros n Hn.
  rewrite (nth_indep _ d (pyget d (pre ++ v ++ post) (Z.of_nat (length pre) + Z.of_nat 0)))
    by (now rewrite map_length, seq_length).
  rewrite (map_nth (fun i => pyget d (pre ++ v ++ post) (Z.of_nat (length pre) + Z.of_nat i)) (seq 0 (length v)) 0).
  rewrite seq_nth by auto. simpl. unfold pyget.
  destruct (0 <=? Z.of_nat (length pre) + Z.of_nat n)%Z eqn:E; [|apply Z.leb_gt in E; lia].
  replace (Z.to_nat (Z.of_nat (length pre) + Z.of_nat n)) with (length pre + n) by lia.
  rewrite app_nth2 by lia. rewrite app_nth1 by lia. f_equal. lia.
Qed.

Lemma nth_error_ext_nth {A} (d : A) p q i j : nth_error p i = nth_error q j -> nth i p d = nth j q d.
Proof. intros H. rewrite <- !nth_default_eq. unfold nth_default. now rewrite H. Qed.

Lemma map_ext_Forall {A B} (f g : A -> B) l : Forall (fun x => f x = g x) l -> map f l = map g l.
Proof. induction 1; simpl; congruence. Qed.

(** Growing: the new index selects what the old one selected, plus the new parameters. *)
Lemma alterFitindex_grow {A} (dflt : A) (pars hyp : list A) f h loc d off v : (0 < d)%nat ->
  off + loc <= length pars -> length v = d ->
  good_fit (length pars) (length hyp) f h ->
  exists fi a b, alterFitindex (f ++ h) loc (Z.of_nat d) off = Some fi /\
    f = a ++ b /\
    let q := firstn (off + loc) pars ++ v ++ skipn (off + loc) pars in
    map (pyget dflt (q ++ hyp)) fi
    = map (pyget dflt (pars ++ hyp)) a ++ v ++ map (pyget dflt (pars ++ hyp)) (b ++ h) /\
    exists f' : list Z, fi = f' ++ h /\ good_fit (length q) (length hyp) f' h /\
    (length f' = length f + d)%nat /\
    (length f = length pars -> f' = map Z.of_nat (seq 0 (length q))).
Proof.
  intros Hd Hk Hv (S & F & N).
  unfold alterFitindex.
  destruct (0 <? Z.of_nat d)%Z eqn:E; [clear E|apply Z.ltb_ge in E; lia].
  destruct (copy_first (Z.of_nat (off + loc)) (f ++ h)) as [a b] eqn:C.
  apply split_sorted in C; auto.
  2:{ eapply Forall_impl; [|exact F]. simpl. lia. }
  2:{ eapply Forall_impl; [|exact N]. simpl. lia. }
  destruct C as (fb & -> & -> & Fa & Fb). rewrite Nat2Z.id. cbn [Nat.ltb Nat.leb skipn].
  set (k := off + loc) in *. set (q := firstn k pars ++ v ++ skipn k pars).
  assert (Lk : length (firstn k pars) = k) by (rewrite firstn_length; lia).
  assert (Lq : length q = length pars + d).
  { unfold q. rewrite !app_length, Lk, skipn_length. lia. }
  assert (Hh : map (fun x : Z => if (0 <=? x)%Z then (x + Z.of_nat d)%Z else x) h = h).
  { rewrite <- (map_id h) at 2. apply map_ext_Forall. eapply Forall_impl; [|exact N]. simpl. intros x Hx.
    destruct (0 <=? x)%Z eqn:E; auto. apply Z.leb_le in E. lia. }
  assert (Hb : map (fun x : Z => if (0 <=? x)%Z then (x + Z.of_nat d)%Z else x) fb = map (fun x => x + Z.of_nat d)%Z fb).
  { apply map_ext_Forall. eapply Forall_impl; [|exact Fb]. simpl. intros x Hx.
    destruct (0 <=? x)%Z eqn:E; auto. apply Z.leb_gt in E. lia. }
  rewrite map_app, Hh, Hb.
  eexists _, a, fb. split; [reflexivity|]. split; [reflexivity|].
  apply Forall_app in F. destruct F as [Fa' Fb'].
  cbv zeta. fold q. split.
  - rewrite !map_app. f_equal.
    + apply map_ext_Forall. eapply Forall_impl; [|exact Fa]. simpl. intros x Hx. unfold pyget.
      destruct (0 <=? x)%Z eqn:E; [|apply Z.leb_gt in E; lia]. apply nth_error_ext_nth.
      rewrite !nth_error_app1 by lia. unfold q. rewrite nth_error_app1 by lia.
      rewrite <- (firstn_skipn k pars) at 2. rewrite nth_error_app1 by lia. reflexivity.
    + f_equal.
      * rewrite <- Hv at 1. unfold q. rewrite <- !app_assoc. apply map_seq_ins. exact Lk.
      * f_equal.
        -- rewrite map_map. apply map_ext_Forall. rewrite Forall_forall in *. intros x Hx.
           specialize (Fb x Hx). specialize (Fb' x Hx). cbv beta in Fb'. unfold pyget.
           destruct (0 <=? x)%Z eqn:E; [|apply Z.leb_gt in E; lia].
           destruct (0 <=? x + Z.of_nat d)%Z eqn:E'; [|apply Z.leb_gt in E'; lia].
           apply nth_error_ext_nth. rewrite !nth_error_app1 by lia.
           unfold q. rewrite nth_error_app2 by lia. rewrite nth_error_app2 by lia.
           rewrite Lk, Hv. rewrite <- (firstn_skipn k pars) at 2. rewrite nth_error_app2 by lia.
           rewrite Lk. f_equal. lia.
        -- apply map_ext_Forall. eapply Forall_impl; [|exact N]. simpl. intros x Hx. unfold pyget.
           destruct (0 <=? x)%Z eqn:E; [apply Z.leb_le in E; lia|]. apply nth_error_ext_nth.
           rewrite !app_length, Lq. rewrite !nth_error_app2 by lia. f_equal. lia.
  - exists (a ++ map (fun i => (Z.of_nat k + Z.of_nat i)%Z) (seq 0 d) ++ map (fun x => (x + Z.of_nat d)%Z) fb).
    assert (G : good_fit (length q) (length hyp)
       (a ++ map (fun i => (Z.of_nat k + Z.of_nat i)%Z) (seq 0 d) ++ map (fun x => (x + Z.of_nat d)%Z) fb) h).
    { split; [|split; auto].
      - apply SS_app'; [|apply SS_app'|].
        + revert S. clear. induction a; intros S; [constructor|]. inversion S; subst. constructor; auto.
          apply Forall_app in H2. tauto.
        + clear. assert (G : forall s, StronglySorted Z.lt (map (fun i => (Z.of_nat k + Z.of_nat i)%Z) (seq s d))).
          { induction d; intros s; simpl; constructor; auto. rewrite Forall_forall. intros x Hx.
            apply in_map_iff in Hx. destruct Hx as (i & <- & Hi). apply in_seq in Hi. lia. }
          apply G.
        + revert S. clear. induction a; intros S; [|inversion S; auto].
          simpl in S. induction S; simpl; constructor; auto. rewrite Forall_forall in *. intros x Hx.
          apply in_map_iff in Hx. destruct Hx as (y & <- & Hy). specialize (H y Hy). lia.
        + intros x y Hx Hy. apply in_map_iff in Hx, Hy. destruct Hx as (i & <- & Hi), Hy as (z & <- & Hz).
          apply in_seq in Hi. rewrite Forall_forall in Fb. specialize (Fb z Hz). lia.
        + intros x y Hx Hy. rewrite Forall_forall in Fa. specialize (Fa x Hx). cbv beta in Fa.
          apply in_app_iff in Hy. destruct Hy as [Hy|Hy]; apply in_map_iff in Hy; destruct Hy as (z & <- & Hz).
          * lia.
          * rewrite Forall_forall in Fb. specialize (Fb z Hz). lia.
      - rewrite Lq. repeat (apply Forall_app; split).
        + eapply Forall_impl; [|exact Fa']. simpl. lia.
        + rewrite Forall_forall. intros x Hx. apply in_map_iff in Hx. destruct Hx as (i & <- & Hi). apply in_seq in Hi. lia.
        + rewrite Forall_forall in *. intros x Hx. apply in_map_iff in Hx. destruct Hx as (z & <- & Hz).
          specialize (Fb' z Hz). cbv beta in Fb'. lia. }
    assert (L : length (a ++ map (fun i => (Z.of_nat k + Z.of_nat i)%Z) (seq 0 d) ++ map (fun x => (x + Z.of_nat d)%Z) fb)
              = length (a ++ fb) + d).
    { rewrite !app_length, !map_length, seq_length. lia. }
    split; [now rewrite <- !app_assoc|]. split; [exact G|]. split; [exact L|].
    intros Lf. destruct G as (S' & F' & _). apply full_index; auto. rewrite L, Lf, Lq. reflexivity.
Qed.

Lemma SS_app_inv {A} (lt : A -> A -> Prop) l1 l2 : StronglySorted lt (l1 ++ l2) ->
  StronglySorted lt l1 /\ StronglySorted lt l2 /\ (forall a b, In a l1 -> In b l2 -> lt a b).
Proof.
  induction l1 as [|x l1 IH]; simpl; intros S.
  - split; [constructor|]. split; auto. intros a b [].
  - inversion S as [|? ? S' F]; subst. apply IH in S'. destruct S' as (A1 & A2 & A3).
    apply Forall_app in F. destruct F as [F1 F2]. split; [constructor; auto|]. split; auto.
    intros a b [<-|Ha] Hb; auto. rewrite Forall_forall in F2. auto.
Qed.

(** A sorted list at or above [k] that contains k .. k+d-1 starts with them. *)
Lemma starts_with d : forall k f, StronglySorted Z.lt f -> Forall (fun x => Z.of_nat k <= x)%Z f ->
  (forall i, (k <= i < k + d)%nat -> In (Z.of_nat i) f) ->
  exists c, f = map Z.of_nat (seq k d) ++ c /\ Forall (fun x => Z.of_nat (k + d) <= x)%Z c.
Proof.
  induction d as [|d IH]; intros k f S F H.
  - exists f. rewrite Nat.add_0_r. auto.
  - destruct f as [|x f]; [destruct (H k); lia|].
    inversion S as [|? ? S' Fx]; subst. inversion F as [|? ? Hx F']; subst.
    assert (X : x = Z.of_nat k).
    { destruct (H k ltac:(lia)) as [E|E]; auto. rewrite Forall_forall in Fx. specialize (Fx _ E). lia. }
    subst x. destruct (IH (k + 1) f S') as (c & -> & Fc).
    + eapply Forall_impl; [|exact Fx]. simpl. lia.
    + intros i Hi. destruct (H i ltac:(lia)) as [E|E]; auto. lia.
    + exists c. simpl. replace (k + 1) with (Datatypes.S k) in * by lia. split; auto.
      eapply Forall_impl; [|exact Fc]. simpl. lia.
Qed.

(** Shrinking: the new index selects what the old one selected, minus the deleted ones. *)
Lemma alterFitindex_shrink {A} (dflt : A) (pars hyp : list A) f h loc d off :
  d <= loc -> off + loc <= length pars ->
  good_fit (length pars) (length hyp) f h ->
  (forall i, off + loc - d <= i < off + loc -> In (Z.of_nat i) f) ->
  exists fi a c, alterFitindex (f ++ h) loc (- Z.of_nat d) off = Some fi /\
    f = a ++ map Z.of_nat (seq (off + loc - d) d) ++ c /\
    let q := firstn (off + loc - d) pars ++ skipn (off + loc) pars in
    map (pyget dflt (q ++ hyp)) fi = map (pyget dflt (pars ++ hyp)) (a ++ c ++ h) /\
    exists f' : list Z, fi = f' ++ h /\ good_fit (length q) (length hyp) f' h /\
    (length f' + d = length f)%nat /\
    (length f = length pars -> f' = map Z.of_nat (seq 0 (length q))).
Proof.
  intros Hd Hk (S & F & N) Hin.
  unfold alterFitindex.
  destruct (0 <? - Z.of_nat d)%Z eqn:E; [apply Z.ltb_lt in E; lia|clear E].
  set (k1 := off + loc - d) in *.
  replace (Z.of_nat (off + loc) + - Z.of_nat d)%Z with (Z.of_nat k1) by lia.
  destruct (copy_first (Z.of_nat k1) (f ++ h)) as [a b] eqn:C.
  apply split_sorted in C; auto.
  2:{ eapply Forall_impl; [|exact F]. simpl. lia. }
  2:{ eapply Forall_impl; [|exact N]. simpl. lia. }
  destruct C as (fb & -> & -> & Fa & Fb). rewrite Z.opp_involutive, Nat2Z.id.
  replace (Z.to_nat (- Z.of_nat d)) with 0 by lia. cbn [seq map app].
  destruct (SS_app_inv _ _ _ S) as (Sa & Sb & Sab).
  destruct (starts_with d k1 fb Sb Fb) as (c & -> & Fc).
  { intros i Hi. specialize (Hin i ltac:(lia)). apply in_app_iff in Hin. destruct Hin as [Hin|Hin]; auto.
    rewrite Forall_forall in Fa. specialize (Fa _ Hin). cbv beta in Fa. lia. }
  destruct (SS_app_inv _ _ _ Sb) as (_ & Sc & _).
  destruct (length ((map Z.of_nat (seq k1 d) ++ c) ++ h) <? d) eqn:E.
  { apply Nat.ltb_lt in E. rewrite !app_length, map_length, seq_length in E. lia. }
  assert (Sk : skipn d ((map Z.of_nat (seq k1 d) ++ c) ++ h) = c ++ h).
  { rewrite <- app_assoc. rewrite skipn_app, map_length, seq_length, Nat.sub_diag.
    rewrite skipn_all2 by (rewrite map_length, seq_length; lia). reflexivity. }
  rewrite Sk. clear E Sk.
  assert (Fp : Forall (fun x => 0 <= x < Z.of_nat (length pars))%Z a /\
               Forall (fun x => 0 <= x < Z.of_nat (length pars))%Z c).
  { apply Forall_app in F. destruct F as [F1 F2]. apply Forall_app in F2. tauto. }
  destruct Fp as [Fpa Fpc].
  set (q := firstn k1 pars ++ skipn (off + loc) pars).
  assert (Lk : length (firstn k1 pars) = k1) by (rewrite firstn_length; lia).
  assert (Lq : length q + d = length pars).
  { unfold q. rewrite !app_length, Lk, skipn_length. lia. }
  assert (Hh : map (fun x : Z => if (0 <=? x)%Z then (x + - Z.of_nat d)%Z else x) h = h).
  { rewrite <- (map_id h) at 2. apply map_ext_Forall. eapply Forall_impl; [|exact N]. simpl. intros x Hx.
    destruct (0 <=? x)%Z eqn:E; auto. apply Z.leb_le in E. lia. }
  assert (Hc : map (fun x : Z => if (0 <=? x)%Z then (x + - Z.of_nat d)%Z else x) c = map (fun x => x + - Z.of_nat d)%Z c).
  { apply map_ext_Forall. eapply Forall_impl; [|exact Fpc]. simpl. intros x Hx.
    destruct (0 <=? x)%Z eqn:E; auto. apply Z.leb_gt in E. lia. }
  rewrite map_app, Hh, Hc.
  eexists _, a, c. split; [reflexivity|]. split; [reflexivity|]. cbv zeta. fold q. split.
  - rewrite !map_app. f_equal; [|f_equal].
    + apply map_ext_Forall. eapply Forall_impl; [|exact Fa]. simpl. intros x Hx. unfold pyget.
      destruct (0 <=? x)%Z eqn:E; [|apply Z.leb_gt in E; lia]. apply nth_error_ext_nth.
      rewrite !nth_error_app1 by lia. unfold q. rewrite nth_error_app1 by lia.
      rewrite <- (firstn_skipn k1 pars) at 2. rewrite nth_error_app1 by lia. reflexivity.
    + rewrite map_map. apply map_ext_Forall. rewrite Forall_forall in *. intros x Hx.
      specialize (Fc x Hx). specialize (Fpc x Hx). cbv beta in *. unfold pyget.
      destruct (0 <=? x)%Z eqn:E; [|apply Z.leb_gt in E; lia].
      destruct (0 <=? x + - Z.of_nat d)%Z eqn:E'; [|apply Z.leb_gt in E'; lia].
      apply nth_error_ext_nth. rewrite !nth_error_app1 by lia.
      unfold q. rewrite nth_error_app2 by lia. rewrite Lk.
      rewrite <- (firstn_skipn (off + loc) pars) at 2.
      assert (Lf : length (firstn (off + loc) pars) = off + loc) by (rewrite firstn_length; lia).
      rewrite nth_error_app2 by lia. rewrite Lf. f_equal. lia.
    + apply map_ext_Forall. eapply Forall_impl; [|exact N]. simpl. intros x Hx. unfold pyget.
      destruct (0 <=? x)%Z eqn:E; [apply Z.leb_le in E; lia|]. apply nth_error_ext_nth.
      rewrite !app_length. rewrite !nth_error_app2 by lia. f_equal. lia.
  - exists (a ++ map (fun x => (x + - Z.of_nat d)%Z) c).
    assert (G : good_fit (length q) (length hyp) (a ++ map (fun x => (x + - Z.of_nat d)%Z) c) h).
    { split; [|split; auto].
      - apply SS_app'; auto.
        + revert Sc. clear. intros S. induction S; simpl; constructor; auto. rewrite Forall_forall in *. intros x Hx.
          apply in_map_iff in Hx. destruct Hx as (y & <- & Hy). specialize (H y Hy). lia.
        + intros x y Hx Hy. apply in_map_iff in Hy. destruct Hy as (z & <- & Hz).
          rewrite Forall_forall in *. specialize (Fa x Hx). specialize (Fc z Hz). cbv beta in *. lia.
      - apply Forall_app; split.
        + eapply Forall_impl; [|exact Fa]. simpl. lia.
        + rewrite Forall_forall in *. intros x Hx. apply in_map_iff in Hx. destruct Hx as (z & <- & Hz).
          specialize (Fpc z Hz). specialize (Fc z Hz). cbv beta in *. lia. }
    assert (L : length (a ++ map (fun x => (x + - Z.of_nat d)%Z) c) + d = length (a ++ map Z.of_nat (seq k1 d) ++ c)).
    { rewrite !app_length, !map_length, seq_length. lia. }
    split; [now rewrite <- !app_assoc|]. split; [exact G|]. split; [exact L|].
    intros Lf. destruct G as (S' & F' & _). apply full_index; auto. lia.
Qed.

(** ** Counting components and parameters *)
Definition rep_count (c : dconf) (n : nat) : nat :=
  match n with 0 => 0 | S n' => c_first c + n' * c_delta c end.

Definition within (c : dconf) (n : nat) : Prop :=
  c_min c <= n /\ match c_max c with Some m => n <= m | None => True end.

(** A state of a dynamic model whose parameters start at [off] in those of the chain. *)
Definition dyn_ok {A} (count : nat -> nat) (c : dconf) (off : nat) (s : dstate A) : Prop :=
  within c (d_ncomp s) /\ d_npbase s = count (d_ncomp s) /\
  length (d_pars s) = d_npchain s /\ off + d_npbase s <= d_npchain s.

(** What lies before and after the parameters of the dynamic model is not touched. *)
Definition frame {A} (off : nat) (s s' : dstate A) : Prop :=
  firstn off (d_pars s') = firstn off (d_pars s) /\
  skipn (off + d_npbase s') (d_pars s') = skipn (off + d_npbase s) (d_pars s).

Lemma frame_refl {A} off (s : dstate A) : frame off s s.
Proof. split; reflexivity. Qed.

Lemma frame_trans {A} off (s t u : dstate A) : frame off s t -> frame off t u -> frame off s u.
Proof. intros [a b] [c d]. split; congruence. Qed.

Lemma grow_by_spec {A} dnp off v (s s' : dstate A) : 0 < dnp -> 
  length (d_pars s) = d_npchain s -> grow_by dnp off v s = Some s' ->
  d_ncomp s' = d_ncomp s + 1 /\ d_npbase s' = d_npbase s + dnp /\
  length (d_pars s') = d_npchain s' /\ off + d_npbase s' <= d_npchain s' /\
  frame off s s' /\ length v = dnp /\
  d_pars s' = firstn (off + d_npbase s) (d_pars s) ++ v ++ skipn (off + d_npbase s) (d_pars s).
Proof.
  intros Hd L. unfold grow_by.
  destruct (alterParameters _ _ _ _ _) as [p|] eqn:E; [|discriminate]. intros H. injection H as <-. cbn.
  apply alter_grow_spec in E; auto. destruct E as (E1 & E2 & ->).
  set (k := off + d_npbase s) in *.
  assert (Lk : length (firstn k (d_pars s)) = k) by (rewrite firstn_length; lia).
  split; [reflexivity|]. split; [reflexivity|]. split.
  { rewrite !app_length, skipn_length, Lk. lia. }
  split; [lia|]. split; [|auto]. split; cbn.
  - rewrite firstn_app, Lk. replace (off - k) with 0 by lia. cbn. rewrite app_nil_r, firstn_firstn.
    f_equal. lia.
  - rewrite skipn_app, Lk, skipn_all2 by lia. cbn. rewrite skipn_app, skipn_all2 by lia. cbn.
    replace (_ - _ - _) with 0 by lia. reflexivity.
Qed.

Lemma shrink_by_spec {A} dnp off (s s' : dstate A) :
  length (d_pars s) = d_npchain s -> shrink_by dnp off s = Some s' ->
  d_ncomp s' = d_ncomp s - 1 /\ d_npbase s' = d_npbase s - dnp /\ dnp <= d_npbase s /\
  length (d_pars s') = d_npchain s' /\ off + d_npbase s' <= d_npchain s' /\
  frame off s s' /\
  d_pars s' = firstn (off + d_npbase s - dnp) (d_pars s) ++ skipn (off + d_npbase s) (d_pars s).
Proof.
  intros L. unfold shrink_by.
  destruct (alterParameters _ _ _ _ _) as [p|] eqn:E; [|discriminate]. intros H. injection H as <-. cbn.
  apply alter_shrink_spec in E. destruct E as (E1 & E2 & ->).
  set (k := off + d_npbase s) in *.
  assert (Lk : length (firstn (k - dnp) (d_pars s)) = k - dnp) by (rewrite firstn_length; lia).
  split; [reflexivity|]. split; [reflexivity|]. split; [auto|]. split.
  { rewrite !app_length, skipn_length, Lk. lia. }
  split; [lia|]. split; [|auto]. split; cbn.
  - rewrite firstn_app, Lk. replace (off - (k - dnp)) with 0 by lia. cbn. rewrite app_nil_r, firstn_firstn.
    f_equal. lia.
  - rewrite skipn_app, Lk, skipn_all2 by lia. cbn. replace (_ - _) with 0 by lia. reflexivity.
Qed.

(** Histories. *)
Inductive dyn_event (A : Type) := DGrow (value : list A) | DShrink.
Arguments DGrow {A}. Arguments DShrink {A}.

Definition dyn_step {A} (growf : list A -> dstate A -> option (dstate A * bool))
    (shrinkf : dstate A -> option (dstate A * bool)) (s : option (dstate A)) (e : dyn_event A)
    : option (dstate A) :=
  match s with
  | None => None
  | Some s => option_map fst (match e with DGrow v => growf v s | DShrink => shrinkf s end)
  end.

Lemma dyn_run_none {A} g h (es : list (dyn_event A)) : fold_left (dyn_step g h) es None = None.
Proof. induction es; simpl; auto. Qed.

Lemma dyn_run_inv {A} (P : dstate A -> Prop) (Q : dstate A -> dstate A -> Prop) g h :
  (forall s, Q s s) -> (forall s t u, Q s t -> Q t u -> Q s u) ->
  (forall s v s' b, P s -> g v s = Some (s', b) -> P s' /\ Q s s') ->
  (forall s s' b, P s -> h s = Some (s', b) -> P s' /\ Q s s') ->
  forall es s s', P s -> fold_left (dyn_step g h) es (Some s) = Some s' -> P s' /\ Q s s'.
Proof.
  intros Q1 Q2 G H. induction es as [|e es IH]; intros s s' Ps E; simpl in E.
  - injection E as <-. auto.
  - destruct e as [v|].
    + destruct (g v s) as [[t b]|] eqn:Eg; [|cbn in E; rewrite dyn_run_none in E; discriminate].
      cbn in E. destruct (G _ _ _ _ Ps Eg) as [Pt Qt]. destruct (IH _ _ Pt E). eauto.
    + destruct (h s) as [[t b]|] eqn:Eg; [|cbn in E; rewrite dyn_run_none in E; discriminate].
      cbn in E. destruct (H _ _ _ Ps Eg) as [Pt Qt]. destruct (IH _ _ Pt E). eauto.
Qed.

Lemma at_max_false c n : at_max c n = false -> match c_max c with Some m => n < m | None => True end.
Proof. unfold at_max. destruct (c_max c); auto. apply Nat.leb_gt. Qed.

Lemma dyn_grow_ok {A} c off v (s s' : dstate A) b : 0 < c_delta c ->
  dyn_ok (fun n => n * c_delta c) c off s -> dyn_grow c off v s = Some (s', b) ->
  dyn_ok (fun n => n * c_delta c) c off s' /\ frame off s s'.
Proof.
  intros Hd (W & C & L & K). unfold dyn_grow. destruct (at_max c (d_ncomp s)) eqn:M.
  - intros H. injection H as <- <-. split; [repeat split; auto; apply W|apply frame_refl].
  - apply at_max_false in M. destruct (grow_by _ _ _ _) as [t|] eqn:E; [|discriminate].
    intros H. injection H as <- <-. apply grow_by_spec in E; auto.
    destruct E as (E1 & E2 & E3 & E4 & E5 & _). split; auto. repeat split; auto.
    + destruct W. lia.
    + rewrite E1. destruct (c_max c); auto. lia.
    + rewrite E1, E2, C. lia.
Qed.

Lemma dyn_shrink_ok {A} c off (s s' : dstate A) b :
  dyn_ok (fun n => n * c_delta c) c off s -> dyn_shrink c off s = Some (s', b) ->
  dyn_ok (fun n => n * c_delta c) c off s' /\ frame off s s'.
Proof.
  intros (W & C & L & K). unfold dyn_shrink. destruct (d_ncomp s <=? c_min c) eqn:M.
  - intros H. injection H as <- <-. split; [repeat split; auto; apply W|apply frame_refl].
  - apply Nat.leb_gt in M. destruct (shrink_by _ _ _) as [t|] eqn:E; [|discriminate].
    intros H. injection H as <- <-. apply shrink_by_spec in E; auto.
    destruct E as (E1 & E2 & E3 & E4 & E5 & E6 & _). split; auto. destruct W as [W1 W2]. repeat split; auto.
    + lia.
    + rewrite E1. destruct (c_max c); auto. lia.
    + rewrite E1, E2, C. destruct (d_ncomp s); [lia|]. simpl. rewrite Nat.sub_0_r. lia.
Qed.

Lemma rep_grow_ok {A} c off v (s s' : dstate A) b : 0 < c_delta c -> 0 < c_first c ->
  dyn_ok (rep_count c) c off s -> rep_grow c off v s = Some (s', b) ->
  dyn_ok (rep_count c) c off s' /\ frame off s s'.
Proof.
  intros Hd Hf (W & C & L & K). unfold rep_grow. destruct (negb (c_dyna c)).
  { intros H. injection H as <- <-. split; [repeat split; auto; apply W|apply frame_refl]. }
  destruct (at_max c (d_ncomp s)) eqn:M.
  - intros H. injection H as <- <-. split; [repeat split; auto; apply W|apply frame_refl].
  - apply at_max_false in M. destruct (grow_by _ _ _ _) as [t|] eqn:E; [|discriminate].
    intros H. injection H as <- <-. apply grow_by_spec in E; auto.
    2:{ destruct (0 <? d_ncomp s); auto. }
    destruct E as (E1 & E2 & E3 & E4 & E5 & _). split; auto. repeat split; auto.
    + destruct W. lia.
    + rewrite E1. destruct (c_max c); auto. lia.
    + rewrite E1, E2, C. destruct (d_ncomp s); cbn [Nat.ltb Nat.leb rep_count]; rewrite ?Nat.add_1_r; cbn; lia.
Qed.

Lemma rep_shrink_ok {A} c off (s s' : dstate A) b :
  dyn_ok (rep_count c) c off s -> rep_shrink c off s = Some (s', b) ->
  dyn_ok (rep_count c) c off s' /\ frame off s s'.
Proof.
  intros (W & C & L & K). unfold rep_shrink. destruct (negb (c_dyna c) || (d_ncomp s <=? c_min c)) eqn:M.
  - intros H. injection H as <- <-. split; [repeat split; auto; apply W|apply frame_refl].
  - apply orb_false_iff in M. destruct M as [_ M]. apply Nat.leb_gt in M.
    destruct (shrink_by _ _ _) as [t|] eqn:E; [|discriminate].
    intros H. injection H as <- <-. apply shrink_by_spec in E; auto.
    destruct E as (E1 & E2 & E3 & E4 & E5 & E6 & _). split; auto. destruct W as [W1 W2]. repeat split; auto.
    + lia.
    + rewrite E1. destruct (c_max c); auto. lia.
    + rewrite E1, E2, C. destruct (d_ncomp s) as [|[|n]]; cbn; lia.
Qed.

(** The calls never raise when the model is in a consistent state. *)
Lemma grow_total {A} dnp off v (s : dstate A) : 0 < dnp -> length (d_pars s) = d_npchain s ->
  off + d_npbase s <= d_npchain s -> length v = dnp -> exists s', grow_by dnp off v s = Some s'.
Proof. intros. unfold grow_by. rewrite alter_grow_some by lia. eauto. Qed.

Lemma shrink_total {A} dnp off (s : dstate A) : length (d_pars s) = d_npchain s ->
  off + d_npbase s <= d_npchain s -> dnp <= d_npbase s -> exists s', shrink_by dnp off s = Some s'.
Proof. intros. unfold shrink_by. rewrite alter_shrink_some by lia. eauto. Qed.
