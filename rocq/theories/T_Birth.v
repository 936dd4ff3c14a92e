(** C61: birth, death and structure engines. *)
From Coq Require Import List Arith ZArith Reals Bool Lia Lra Permutation Sorted.
From Verif Require Import L_List M_Order P_Order M_Dynamic P_Dynamic P_Repeat T_Dynamic M_Birth P_Birth.
Import ListNotations.

(** A walker that agrees with itself: the number of components is within its limits and the parameters are as many as the model and
    the error distribution have, all of them fitted, with h the fitted hyper parameters; the noise scale is not negative; the stored
    likelihood is that of its model and parameters. *)
Definition wok (lik : dstate R -> list R -> R) (c : dconf) (off nhyp : nat) (h : list Z) (w : ewalker (dstate R)) : Prop :=
  dyn_ok (rep_count c) c off (ew_model w) /\ length (ew_allp w) = d_npchain (ew_model w) + nhyp /\
  Forall (fun x => - Z.of_nat nhyp <= x < 0)%Z h /\
  ew_fit w = map Z.of_nat (seq 0 (d_npchain (ew_model w))) ++ h /\
  (0 < nhyp -> (0 <= nth (d_npchain (ew_model w)) (ew_allp w) 0)%R) /\
  ew_logL w = lik (ew_model w) (ew_allp w).

(** The new walker is appended, with a new number; or it takes the place and the number of the old one.  All others are as they were. *)
Definition changed {M} (e e' : ens M) (append : bool) (kw : nat) (w' : ewalker M) : Prop :=
  if append then en_list e' = en_list e ++ [w'] /\ ew_id w' = en_count e /\ en_count e' = S (en_count e)
  else exists w, nth_error (en_list e) kw = Some w /\ ew_id w' = ew_id w /\ en_count e' = en_count e /\
         length (en_list e') = length (en_list e) /\ nth_error (en_list e') kw = Some w' /\
         forall j, j <> kw -> nth_error (en_list e') j = nth_error (en_list e) j.

Lemma setW_changed {M} (e : ens M) (append : bool) kw w m allp L fit : nth_error (en_list e) kw = Some w ->
  exists w', changed e (setW e (if append then length (en_list e) else kw) m allp L fit) append kw w' /\
    ew_model w' = m /\ ew_allp w' = allp /\ ew_logL w' = L /\ ew_fit w' = fit.
Proof.
  intros E. unfold setW, changed. destruct append.
  - assert (X : nth_error (en_list e) (length (en_list e)) = None) by (apply nth_error_None; lia). rewrite X.
    eexists. cbn. repeat split.
  - rewrite E. eexists. split.
    + exists w. split; [reflexivity|]. cbn [en_count en_list]. rewrite upd_length. split; [|split; [|split; [|split]]].
      2,3 : reflexivity. 2 : { apply upd_nth_same. apply nth_error_Some. congruence. }
      * reflexivity.
      * intros j Hj. apply upd_nth_other. auto.
    + cbn. auto.
Qed.

Definition drawn (u2d : nat -> R -> R) (k : nat) (u : list R) : list R :=
  map (fun ku => u2d (fst ku) (snd ku)) (combine (seq k (length u)) u).

Lemma drawn_length u2d k u : length (drawn u2d k u) = length u.
Proof. unfold drawn. rewrite map_length, combine_length, seq_length. lia. Qed.
Lemma drawn_nth u2d k u i x : nth_error u i = Some x -> nth_error (drawn u2d k u) i = Some (u2d (k + i) x).
Proof.
  unfold drawn. revert k i. induction u as [|a u IH]; intros k [|i] H; try discriminate; cbn in *.
  - injection H as ->. now rewrite Nat.add_0_r.
  - rewrite (IH (S k) i H). do 2 f_equal. lia.
Qed.

Lemma birthLoop_spec lik u2d m k low allp us n : k <= length allp -> (forall t, length (us t) = n) -> forall fuel t,
  let q := fun t => insertAt k (drawn u2d k (us t)) allp in
  match birthLoop lik u2d fuel t us m (seq k n) low (q t) with
  | None => forall i, t <= i < t + fuel -> (lik m (q i) < low)%R
  | Some (p, L) => exists i, t <= i < t + fuel /\ p = q i /\ L = lik m (q i) /\ (low <= L)%R /\ forall j, t <= j < i -> (lik m (q j) < low)%R
  end.
Proof.
  intros Hk Hu. induction fuel as [|f IH]; intros t q; cbn [birthLoop]; [intros; lia|].
  destruct (Rle_dec low (lik m (q t))) as [H|H].
  - exists t. repeat split; auto; try lia.
  - replace (assign (q t) (seq k n) (map (fun ku => u2d (fst ku) (snd ku)) (combine (seq k n) (us (S t))))) with (q (S t)).
    + specialize (IH (S t)). cbn zeta in IH. fold (q (S t)) in IH. destruct (birthLoop _ _ _ _ _ _ _ _ _) as [[p L]|].
      * destruct IH as (i & Hi & Hp & HL & Hl & Hj). exists i. repeat split; auto; try lia. intros j Hj'. destruct (Nat.eq_dec j t) as [->|]; [lra|].
        apply Hj. lia.
      * intros i Hi. destruct (Nat.eq_dec i t) as [->|]; [lra|]. apply IH. lia.
    + unfold q. rewrite <- (Hu t) at 1. rewrite <- (drawn_length u2d k (us t)). rewrite assign_insert; auto.
      * unfold drawn at 1. now rewrite Hu.
      * rewrite drawn_length, map_length, combine_length, seq_length, !Hu. lia.
Qed.

Lemma wcheck_grown c off nhyp (s : dstate R) v allp : dyn_ok (rep_count c) c off s -> length allp = d_npchain s + nhyp ->
  (0 < nhyp -> (0 <= nth (d_npchain s) allp 0)%R) ->
  wcheck (d_npchain s + length v) (length (insertAt (off + d_npbase s) v (firstn (d_npchain s) allp))) nhyp
         (insertAt (off + d_npbase s) v allp) = true /\
  nth (d_npchain s + length v) (insertAt (off + d_npbase s) v allp) 0%R = nth (d_npchain s) allp 0%R.
Proof.
  intros (_ & _ & _ & K) La Hh.
  assert (E : nth (d_npchain s + length v) (insertAt (off + d_npbase s) v allp) 0%R = nth (d_npchain s) allp 0%R).
  { unfold insertAt. rewrite app_nth2; rewrite firstn_length; [|lia]. rewrite app_nth2 by lia. rewrite nth_skipn'. f_equal. lia. }
  split; [|exact E]. unfold wcheck. rewrite !insertAt_length, firstn_length, Nat.min_l by lia.
  replace (length allp + length v - nhyp) with (d_npchain s + length v) by lia.
  rewrite Nat.eqb_refl, andb_true_r. replace (length allp + length v) with (d_npchain s + length v + nhyp) by lia.
  rewrite Nat.eqb_refl. cbn [andb]. destruct (Nat.ltb_spec 0 nhyp); [|reflexivity]. rewrite E.
  destruct (Rlt_dec _ _); [|reflexivity]. specialize (Hh ltac:(lia)). lra.
Qed.

(** Growing and shrinking by one component, as RepeatingModel does it. *)
Definition canGrow (c : dconf) (s : dstate R) (g : R) : Prop :=
  (INR (d_ncomp s) < g)%R /\ c_dyna c = true /\ match c_max c with Some m => d_ncomp s < m | None => True end.
Definition canShrink (c : dconf) (s : dstate R) (g : R) : Prop :=
  (g < INR (d_ncomp s))%R /\ c_dyna c = true /\ c_min c < d_ncomp s.

(** The birth engine.  It does not raise.  When the model can grow, it tries at most maxtrials times; the first set of values for the new parameters,
    each from its prior, with a likelihood that is not below the limit, makes the new walker: one component more, the new values
    inserted after the parameters of the model, all others - of the other models and of the error distribution - as they were.
    Otherwise nothing changes and 0 is returned. *)
Theorem C61_birth lik u2d nhyp off maxtrials c h kw low append g us e w :
  0 < c_delta c -> 0 < c_first c -> nth_error (en_list e) kw = Some w -> wok lik c off nhyp h w ->
  (forall t, length (us t) = if 0 <? d_ncomp (ew_model w) then c_delta c else c_first c) ->
  let s := ew_model w in let allp := ew_allp w in let k := off + d_npbase s in let dnp := length (us 0) in
  let q := fun t => firstn k allp ++ drawn u2d k (us t) ++ skipn k allp in
  exists m : dstate R, d_ncomp m = d_ncomp s + 1 /\ d_npbase m = d_npbase s + dnp /\ d_npchain m = d_npchain s + dnp /\
  let r := birth lik u2d nhyp off maxtrials (rep_grow c off) (fun s => if 0 <? d_ncomp s then c_delta c else c_first c)
                 kw low append g us e in
  (~ canGrow c s g \/ (forall t, t < maxtrials -> (lik m (q t) < low)%R) -> r = Some (e, 0)) /\
  (canGrow c s g -> forall t, t < maxtrials -> (forall i, i < t -> (lik m (q i) < low)%R) -> (low <= lik m (q t))%R ->
     exists e' w', r = Some (e', dnp) /\ changed e e' append kw w' /\ wok lik c off nhyp h w' /\
       ew_model w' = m /\ ew_allp w' = q t /\ (low <= ew_logL w')%R).
Proof.
  intros Hd Hf Ew (Ok & La & Fh & Ef & Hh & El) Hu s allp k dnp q. fold s in Ok, La, Ef, Hh, El, Hu. fold allp in La, Hh, El.
  exists (grown off (drawn u2d k (us 0)) allp s). unfold grown at 1 2 3. cbn [d_ncomp d_npbase d_npchain]. rewrite drawn_length. fold dnp.
  split; [reflexivity|]. split; [reflexivity|]. split; [reflexivity|]. set (m := grown _ _ _ _).
  assert (Hk : k <= length allp) by (destruct Ok as (_ & _ & _ & K); rewrite La; unfold k; lia).
  assert (Lv : length (drawn u2d k (us 0)) = stepNp c s) by (rewrite drawn_length; apply Hu).
  unfold birth. rewrite Ew. fold s. fold allp.
  replace (map (fun ku => u2d (fst ku) (snd ku)) (combine (seq (off + d_npbase s) (if 0 <? d_ncomp s then c_delta c else c_first c)) (us 0)))
    with (drawn u2d k (us 0)) by (unfold drawn; now rewrite Hu).
  rewrite Ef. fold s. change (map Z.of_nat (seq 0 (d_npchain s)) ++ h) with (full (d_npchain s) h).
  rewrite (birth_try_full c off nhyp h (drawn u2d k (us 0)) s allp Hd Hf Ok La Fh Lv).
  assert (B : c_dyna c && negb (at_max c (d_ncomp s)) = true <-> c_dyna c = true /\ match c_max c with Some m => d_ncomp s < m | None => True end).
  { unfold at_max. rewrite andb_true_iff, negb_true_iff. destruct (c_max c) as [x|]; [rewrite Nat.leb_gt|]; tauto. }
  destruct (Rlt_dec (INR (d_ncomp s)) g) as [Hg|Hg].
  2:{ split; [reflexivity|]. intros [X _]. contradiction. }
  destruct (c_dyna c && negb (at_max c (d_ncomp s))) eqn:Ec.
  2:{ split; [reflexivity|]. intros (_ & X). apply B in X. discriminate. }
  destruct B as [B _]. specialize (B eq_refl). cbn [dw_model dw_allpars dw_fit]. fold m.
  replace (d_npbase m - d_npbase s) with dnp by (unfold m, grown; cbn; rewrite drawn_length; unfold dnp; lia).
  pose proof (birthLoop_spec lik u2d m k low allp us dnp Hk (fun t => eq_trans (Hu t) (eq_sym (Hu 0))) maxtrials 0) as L. cbn zeta in L.
  change (fun t : nat => insertAt k (drawn u2d k (us t)) allp) with q in L.
  fold k. change (insertAt k (drawn u2d k (us 0)) allp) with (q 0).
  destruct (birthLoop lik u2d maxtrials 0 us m (seq k dnp) low (q 0)) as [[p L0]|].
  - destruct L as (i & Hi & -> & -> & Hl & Hj). split.
    + intros [X|X]; [exfalso; apply X; split; tauto|]. specialize (X i ltac:(lia)). lra.
    + intros _ t Ht Hlt Hge. assert (i = t).
      { destruct (lt_eq_lt_dec i t) as [[X|X]|X]; [specialize (Hlt i X); lra|exact X|]. specialize (Hj t ltac:(lia)). lra. }
      subst i.
      destruct (wcheck_grown c off nhyp s (drawn u2d k (us t)) allp Ok La Hh) as [Wc We]. fold k in Wc, We.
      assert (Wc' : wcheck (d_npchain m) (length (d_pars m)) nhyp (q t) = true).
      { rewrite <- Wc. unfold q. fold (insertAt k (drawn u2d k (us t)) allp). f_equal.
        - unfold m, grown. cbn. rewrite !drawn_length. rewrite (Hu t), (Hu 0). reflexivity.
        - unfold m, grown. cbn [d_pars]. fold k. rewrite !insertAt_length, !drawn_length. rewrite (Hu t), (Hu 0). reflexivity. }
      rewrite Wc'.
      destruct (setW_changed e append kw w m (q t) (lik m (q t)) (full (d_npchain s + length (drawn u2d k (us 0))) h) Ew) as (w' & Ch & E1 & E2 & E3 & E4).
      eexists. exists w'. split; [reflexivity|]. split; [exact Ch|]. split; [|split; [exact E1|split; [exact E2|now rewrite E3]]].
      unfold wok. rewrite E1, E2, E3, E4. split; [|split; [|split; [exact Fh|split; [reflexivity|split; [|reflexivity]]]]].
      * destruct Ok as (W & C & Lp & K). unfold m, grown. split; [|split; [|split]]; cbn [d_ncomp d_npbase d_npchain d_pars].
        -- destruct W as [W1 W2]. split; [lia|]. destruct B as [_ B]. destruct (c_max c); [lia|exact Logic.I].
        -- rewrite Lv, C. unfold stepNp. destruct (d_ncomp s); cbn [Nat.ltb Nat.leb rep_count]; rewrite ?Nat.add_1_r; cbn; lia.
        -- rewrite insertAt_length, firstn_length. rewrite La. lia.
        -- lia.
      * unfold q. fold (insertAt k (drawn u2d k (us t)) allp). rewrite insertAt_length. unfold m, grown. cbn. rewrite !drawn_length, (Hu t), (Hu 0). rewrite La. lia.
      * intros Hn. unfold m, grown. cbn [d_npchain]. rewrite drawn_length, (Hu 0), <- (Hu t), <- (drawn_length u2d k (us t)).
        unfold q. fold (insertAt k (drawn u2d k (us t)) allp). rewrite We. now apply Hh.
  - split; [reflexivity|]. intros _ t Ht _ Hge. specialize (L t ltac:(lia)). lra.
Qed.

Lemma wcheck_cut c off nhyp (s : dstate R) d allp : dyn_ok (rep_count c) c off s -> length allp = d_npchain s + nhyp ->
  (0 < nhyp -> (0 <= nth (d_npchain s) allp 0)%R) -> d <= d_npbase s ->
  wcheck (d_npchain s - d) (length (cutAt (off + d_npbase s) d (firstn (d_npchain s) allp))) nhyp
         (cutAt (off + d_npbase s) d allp) = true /\
  nth (d_npchain s - d) (cutAt (off + d_npbase s) d allp) 0%R = nth (d_npchain s) allp 0%R.
Proof.
  intros (_ & _ & _ & K) La Hh Hd.
  assert (E : nth (d_npchain s - d) (cutAt (off + d_npbase s) d allp) 0%R = nth (d_npchain s) allp 0%R).
  { unfold cutAt. rewrite app_nth2; rewrite firstn_length; [|lia]. rewrite nth_skipn'. f_equal. lia. }
  assert (Lf : length (firstn (d_npchain s) allp) = d_npchain s) by (rewrite firstn_length; lia).
  split; [|exact E]. unfold wcheck. rewrite !cutAt_length by (rewrite ?Lf; lia). rewrite Lf.
  replace (length allp - d - nhyp) with (d_npchain s - d) by lia.
  rewrite Nat.eqb_refl, andb_true_r. replace (length allp - d) with (d_npchain s - d + nhyp) by lia.
  rewrite Nat.eqb_refl. cbn [andb]. destruct (Nat.ltb_spec 0 nhyp); [|reflexivity]. rewrite E.
  destruct (Rlt_dec _ _); [|reflexivity]. specialize (Hh ltac:(lia)). lra.
Qed.

(** The death engine, for a repeating model of mnp parameters per component of which those in index are not shared.  It does not
    raise.  The components are put in the order of a random permutation, and the last one is taken away: the parameters are the shuffled ones
    without it. *)
Theorem C61_death lik nhyp off mnp index c h per kw low append g e w :
  c_first c = mnp -> c_delta c = length index -> NoDup index -> (forall i, In i index -> i < mnp) ->
  nth_error (en_list e) kw = Some w -> wok lik c off nhyp h w ->
  Permutation per (seq 0 (d_ncomp (ew_model w))) ->
  let s := ew_model w in
  let p := rep_shuffle 0%R off mnp index (d_ncomp s) per (ew_allp w) in
  let d := if 1 <? d_ncomp s then c_delta c else c_first c in
  let q := firstn (off + d_npbase s - d) p ++ skipn (off + d_npbase s) p in
  exists m : dstate R, d_ncomp m = d_ncomp s - 1 /\ d_npbase m = d_npbase s - d /\ d_npchain m = d_npchain s - d /\
  let r := death lik nhyp off (fun s => rep_shuffle 0%R off mnp index (d_ncomp s) per) (rep_shrink c off) kw low append g e in
  (~ canShrink c s g \/ (lik m q < low)%R -> r = Some (e, 0)) /\
  (canShrink c s g -> (low <= lik m q)%R ->
     exists e' w', r = Some (e', d) /\ changed e e' append kw w' /\ wok lik c off nhyp h w' /\
       ew_model w' = m /\ ew_allp w' = q /\ (low <= ew_logL w')%R).
Proof.
  intros Ef1 Ed1 Nd Hi Ew (Ok & La & Fh & Ef & Hh & El) Hper s p d q. fold s in Ok, La, Ef, Hh, El, Hper.
  exists (shrunk off d p s). cbn [shrunk d_ncomp d_npbase d_npchain].
  split; [reflexivity|]. split; [reflexivity|]. split; [reflexivity|]. set (m := shrunk _ _ _ _).
  assert (Hb : d_ncomp s = 0 \/ off + mnp + (d_ncomp s - 1) * length index = off + d_npbase s).
  { destruct Ok as (_ & C & _ & K). destruct (d_ncomp s); [now left|right]. cbn in C. rewrite C, <- Ef1, <- Ed1.
    replace (S n - 1) with n by lia. lia. }
  assert (Hc : off + d_npbase s <= length (ew_allp w)) by (destruct Ok as (_ & _ & _ & K); lia).
  assert (Sh : length p = length (ew_allp w) /\ nth (d_npchain s) p 0%R = nth (d_npchain s) (ew_allp w) 0%R).
  { destruct Hb as [Hb|Hb]; [unfold p; rewrite Hb; split; reflexivity|].
    destruct (C16_only_own_free_parameters R 0%R off mnp index (d_ncomp s) per (ew_allp w) Nd Hi Hper) as [X1 X2]; [lia|].
    fold p in X1, X2. split; [exact X1|]. apply X2. right. left. destruct Ok as (_ & _ & _ & K). lia. }
  destruct Sh as [Lp Hn].
  assert (Hd : c_min c < d_ncomp s -> d <= d_npbase s).
  { destruct Ok as (_ & C & _ & K). rewrite C. unfold d. destruct (d_ncomp s) as [|[|n]]; cbn; lia. }
  unfold death. rewrite Ew. fold s. rewrite Ef. change (map Z.of_nat (seq 0 (d_npchain s)) ++ h) with (full (d_npchain s) h).
  rewrite (death_try_full c off nhyp h (rep_shuffle 0%R off mnp index (d_ncomp s) per) s (ew_allp w) Ok La Fh Lp). fold p.
  change (dropNp c s) with d.
  destruct (Rlt_dec g (INR (d_ncomp s))) as [Hg|Hg].
  2:{ split; [reflexivity|]. intros [X _]. contradiction. }
  destruct (c_dyna c) eqn:Ec; cbn [andb].
  2:{ split; [reflexivity|]. intros (_ & X & _). congruence. }
  destruct (c_min c <? d_ncomp s) eqn:Em.
  2:{ split; [reflexivity|]. intros (_ & _ & X). apply Nat.ltb_ge in Em. lia. }
  apply Nat.ltb_lt in Em. specialize (Hd Em). cbn [dw_model dw_allpars dw_fit]. fold m.
  change (cutAt (off + d_npbase s) d p) with q.
  destruct (Rle_dec low (lik m q)) as [Hl|Hl].
  2:{ split; [reflexivity|]. intros _ X. contradiction. }
  split.
  { intros [X|X]; [exfalso; apply X; now repeat split|lra]. }
  intros _ _.
  destruct (wcheck_cut c off nhyp s d p Ok) as [Wc We]; [lia|rewrite Hn; exact Hh|exact Hd|].
  assert (Wc' : wcheck (d_npchain m) (length (d_pars m)) nhyp q = true) by exact Wc. rewrite Wc'.
  replace (d_npbase s - d_npbase m) with d by (unfold m, shrunk; cbn; lia).
  destruct (setW_changed e append kw w m q (lik m q) (full (d_npchain s - d) h) Ew) as (w' & Ch & E1 & E2 & E3 & E4).
  eexists. exists w'. split; [reflexivity|]. split; [exact Ch|]. split; [|split; [exact E1|split; [exact E2|now rewrite E3]]].
  unfold wok. rewrite E1, E2, E3, E4. split; [|split; [|split; [exact Fh|split; [reflexivity|split; [|reflexivity]]]]].
  - destruct Ok as (W & C & Lq & K). unfold m, shrunk. split; [|split; [|split]]; cbn [d_ncomp d_npbase d_npchain d_pars].
    + destruct W as [W1 W2]. split; [lia|]. destruct (c_max c); [lia|exact Logic.I].
    + rewrite C. unfold d. destruct (d_ncomp s) as [|[|n]]; cbn; lia.
    + assert (Lf : length (firstn (d_npchain s) p) = d_npchain s) by (rewrite firstn_length; lia). rewrite cutAt_length by lia. lia.
    + lia.
  - change q with (cutAt (off + d_npbase s) d p). rewrite cutAt_length by lia. unfold m, shrunk. cbn. destruct Ok as (_ & _ & _ & K). lia.
  - intros X. unfold m, shrunk. cbn [d_npchain]. change q with (cutAt (off + d_npbase s) d p). rewrite We, Hn. now apply Hh.
Qed.

Lemma slice_cut off np d (p : list R) : d <= np -> off + np <= length p ->
  slice off (off + (np - d)) (firstn (off + np - d) p ++ skipn (off + np) p) = firstn (np - d) (slice off (off + np) p).
Proof.
  intros H1 H2. unfold slice. replace (off + (np - d) - off) with (np - d) by lia. replace (off + np - off) with np by lia.
  rewrite skipn_app. rewrite firstn_length. replace (off - Nat.min (off + np - d) (length p)) with 0 by lia. cbn [skipn].
  rewrite firstn_app, skipn_length, firstn_length. replace (np - d - (Nat.min (off + np - d) (length p) - off)) with 0 by lia.
  cbn [firstn]. rewrite app_nil_r, firstn_firstn, Nat.min_l by lia.
  rewrite skipn_firstn_comm. replace (off + np - d - off) with (np - d) by lia. rewrite firstn_firstn. f_equal. lia.
Qed.

(** Each component that is left by the shuffle and the removal of the last one, is one of those that were there, each at most once; nothing
    else changes. *)
Theorem C61_death_components off mnp index n per allp :
  1 < n -> NoDup index -> (forall i, In i index -> i < mnp) -> Permutation per (seq 0 n) ->
  let delta := length index in let np := mnp + (n - 1) * delta in off + np <= length allp ->
  let p := rep_shuffle 0%R off mnp index n per allp in
  let q := firstn (off + np - delta) p ++ skipn (off + np) p in
  exists from : nat -> nat, (forall j, j < n - 1 -> from j < n) /\ (forall i j, i < n - 1 -> j < n - 1 -> from i = from j -> i = j) /\
    (forall j, j < n - 1 -> component mnp index (slice off (off + (np - delta)) q) j = component mnp index (slice off (off + np) allp) (from j)) /\
    firstn off q = firstn off allp /\ skipn (off + (np - delta)) q = skipn (off + np) allp.
Proof.
  intros Hn Nd Hi Hper delta np L p q.
  destruct (C16_only_own_free_parameters R 0%R off mnp index n per allp Nd Hi Hper) as [Lp Op]; [unfold np, delta in L; lia|]. fold p in Lp, Op.
  assert (Hd : delta <= np) by (unfold np; destruct n as [|[|n]]; cbn; lia).
  pose (inv := fun k => match find (fun s => nth s per 0 =? k) (seq 0 n) with Some s => s | None => 0 end).
  assert (Iv : forall k, k < n -> inv k < n /\ nth (inv k) per 0 = k).
  { intros k Hk. destruct (per_surj index n Hn per Hper k Hk) as (j & Hj & Ej). unfold inv.
    destruct (find _ _) as [s0|] eqn:F.
    - apply find_some in F. destruct F as [F1 F2]. apply in_seq in F1. apply Nat.eqb_eq in F2. lia.
    - apply find_none with (x := j) in F; [|apply in_seq; lia]. apply Nat.eqb_neq in F. lia. }
  pose (slotOf := fun j => if j =? 0 then n - 1 else j - 1).
  assert (So : forall j, j < n -> slotOf j < n /\ slot2comp n (slotOf j) = j).
  { intros j Hj. unfold slotOf, slot2comp. destruct (Nat.eqb_spec j 0).
    - split; [lia|]. destruct (Nat.ltb_spec (n - 1) (n - 1)); lia.
    - split; [lia|]. destruct (Nat.ltb_spec (j - 1) (n - 1)); lia. }
  assert (Sc : forall s, s < n -> slot2comp n s < n).
  { intros s0 Hs. unfold slot2comp. destruct (Nat.ltb_spec s0 (n - 1)); lia. }
  exists (fun j => slot2comp n (inv (slotOf j))). split; [|split; [|split; [|split]]].
  - intros j Hj. apply Sc. apply Iv. apply So. lia.
  - intros i j Hi' Hj' E. destruct (So i ltac:(lia)) as [Si Ei], (So j ltac:(lia)) as [Sj Ej].
    destruct (Iv _ Si) as [I1 I2], (Iv _ Sj) as [J1 J2].
    assert (X : inv (slotOf i) = inv (slotOf j)).
    { revert E. unfold slot2comp. destruct (Nat.ltb_spec (inv (slotOf i)) (n - 1)), (Nat.ltb_spec (inv (slotOf j)) (n - 1)); lia. }
    rewrite <- Ei, <- Ej. rewrite <- I2, <- J2, X. reflexivity.
  - intros j Hj. destruct (So j ltac:(lia)) as [Sj Ej]. destruct (Iv _ Sj) as [I1 I2].
    etransitivity; [|exact (shuffled_component off mnp index n Hn Nd Hi per Hper allp (inv (slotOf j)) L I1)].
    fold p. fold delta. fold np. rewrite I2, Ej.
    unfold q. rewrite slice_cut by lia.
    assert (Ls : length (slice off (off + np) p) = np) by (unfold slice; rewrite firstn_length, skipn_length; lia).
    assert (Fm : firstn mnp (firstn (np - delta) (slice off (off + np) p)) = firstn mnp (slice off (off + np) p)).
    { rewrite firstn_firstn. f_equal. unfold np. destruct n as [|[|n]]; cbn; lia. }
    unfold component. destruct j as [|j]; [exact Fm|]. rewrite Fm. f_equal. fold delta.
    rewrite skipn_firstn_comm, firstn_firstn. f_equal. unfold np. nia.
  - unfold q. rewrite firstn_app, firstn_firstn, Nat.min_l by lia. rewrite firstn_length.
    replace (off - Nat.min (off + np - delta) (length p)) with 0 by lia. cbn. rewrite app_nil_r.
    apply nth_ext with (d := 0%R) (d' := 0%R); [rewrite !firstn_length; lia|]. intros k Hk. rewrite firstn_length in Hk.
    rewrite !nth_firstn_lt' by lia. apply Op. lia.
  - unfold q. rewrite skipn_app, firstn_length. rewrite skipn_all2 by (rewrite firstn_length; lia).
    replace (off + (np - delta) - Nat.min (off + np - delta) (length p)) with 0 by lia. cbn.
    apply nth_ext with (d := 0%R) (d' := 0%R); [rewrite !skipn_length; lia|]. intros k Hk. rewrite !nth_skipn'. apply Op. right. left. unfold np, delta. lia.
Qed.

(** Any number of births and deaths, each with its own lower limit of the likelihood. *)
Inductive estep (lik : dstate R -> list R -> R) (u2d : nat -> R -> R) (c : dconf) (index : list nat) (nhyp off maxtrials : nat) (low : R)
    : ens (dstate R) -> ens (dstate R) -> Prop :=
| SBirth kw append g us e w e' mv :
    nth_error (en_list e) kw = Some w ->
    (forall t, length (us t) = if 0 <? d_ncomp (ew_model w) then c_delta c else c_first c) ->
    birth lik u2d nhyp off maxtrials (rep_grow c off) (fun s => if 0 <? d_ncomp s then c_delta c else c_first c)
          kw low append g us e = Some (e', mv) -> estep lik u2d c index nhyp off maxtrials low e e'
| SDeath kw append g per e w e' mv :
    nth_error (en_list e) kw = Some w -> Permutation per (seq 0 (d_ncomp (ew_model w))) ->
    death lik nhyp off (fun s => rep_shuffle 0%R off (c_first c) index (d_ncomp s) per) (rep_shrink c off) kw low append g e = Some (e', mv) ->
    estep lik u2d c index nhyp off maxtrials low e e'.
Inductive eruns (lik : dstate R -> list R -> R) (u2d : nat -> R -> R) (c : dconf) (index : list nat) (nhyp off maxtrials : nat) (low : R)
    : ens (dstate R) -> ens (dstate R) -> Prop :=
| Rnil e : eruns lik u2d c index nhyp off maxtrials low e e
| Rcons e1 e2 e3 low' : (low <= low')%R -> estep lik u2d c index nhyp off maxtrials low' e1 e2 ->
    eruns lik u2d c index nhyp off maxtrials low e2 e3 -> eruns lik u2d c index nhyp off maxtrials low e1 e3.

Definition ensOk (lik : dstate R -> list R -> R) (c : dconf) (off nhyp : nat) (h : list Z) (low : R) (e : ens (dstate R)) : Prop :=
  (forall w, In w (en_list e) -> wok lik c off nhyp h w /\ (low <= ew_logL w)%R /\ ew_id w < en_count e) /\
  NoDup (map ew_id (en_list e)).

Lemma changed_ok lik c off nhyp h low e e' append kw w' :
  ensOk lik c off nhyp h low e -> changed e e' append kw w' -> wok lik c off nhyp h w' -> (low <= ew_logL w')%R -> ensOk lik c off nhyp h low e'.
Proof.
  intros [A N] Ch Ok L. unfold changed in Ch. destruct append.
  - destruct Ch as (El & Ei & Ec). split.
    + intros w Hw. rewrite El in Hw. apply in_app_iff in Hw. destruct Hw as [Hw|[<-|[]]].
      * destruct (A w Hw) as (A1 & A2 & A3). repeat split; auto; try apply A1. lia.
      * repeat split; auto; try apply Ok. lia.
    + rewrite El, map_app. cbn. eapply Permutation_NoDup; [apply Permutation_cons_append|]. constructor; [|exact N].
      intros X. apply in_map_iff in X. destruct X as (w & Ew & Hw). destruct (A w Hw) as (_ & _ & A3). lia.
  - destruct Ch as (w & Ew & Ei & Ec & Ll & En & Eo).
    assert (M : map ew_id (en_list e') = map ew_id (en_list e)).
    { apply nth_error_ext. intros i. rewrite !nth_error_map. destruct (Nat.eq_dec i kw) as [->|Hi].
      - rewrite En, Ew. cbn. now rewrite Ei.
      - now rewrite Eo. }
    split; [|now rewrite M]. intros x Hx. apply In_nth_error in Hx. destruct Hx as (i & Hx). rewrite Ec.
    destruct (Nat.eq_dec i kw) as [->|Hi].
    + rewrite En in Hx. injection Hx as <-. repeat split; auto; try apply Ok. rewrite Ei. apply A. eapply nth_error_In; eauto.
    + rewrite Eo in Hx by auto. apply A. eapply nth_error_In; eauto.
Qed.

Theorem C61_history lik u2d c index nhyp off maxtrials h low e e' :
  0 < c_delta c -> 0 < c_first c -> c_delta c = length index -> NoDup index -> (forall i, In i index -> i < c_first c) ->
  ensOk lik c off nhyp h low e -> eruns lik u2d c index nhyp off maxtrials low e e' -> ensOk lik c off nhyp h low e'.
Proof.
  intros Hd Hf Ed Nd Hi Ok Run. induction Run as [|e1 e2 e3 low' Hl St _ IH]; [exact Ok|]. apply IH. clear IH.
  destruct St as [kw append g us e w e' mv Ew Hu B | kw append g per e w e' mv Ew Hp B].
  - assert (Wo : wok lik c off nhyp h w) by (apply Ok; eapply nth_error_In; eauto).
    destruct (C61_birth lik u2d nhyp off maxtrials c h kw low' append g us e w Hd Hf Ew Wo Hu) as (m & _ & _ & _ & N & Y).
    cbn zeta in N, Y. rewrite B in N, Y.
    pose (q := fun t => firstn (off + d_npbase (ew_model w)) (ew_allp w) ++ drawn u2d (off + d_npbase (ew_model w)) (us t) ++ skipn (off + d_npbase (ew_model w)) (ew_allp w)).
    assert (Dec : (forall t, t < maxtrials -> (lik m (q t) < low')%R) \/
                  exists t, t < maxtrials /\ (forall i, i < t -> (lik m (q i) < low')%R) /\ (low' <= lik m (q t))%R).
    { clear. induction maxtrials as [|n IH]; [left; intros; lia|]. destruct IH as [IH|(t & Ht & H1 & H2)].
      - destruct (Rlt_dec (lik m (q n)) low').
        + left. intros t Ht. destruct (Nat.eq_dec t n) as [->|]; [auto|apply IH; lia].
        + right. exists n. repeat split; auto. lra.
      - right. exists t. repeat split; auto. }
    assert (Dc : canGrow c (ew_model w) g \/ ~ canGrow c (ew_model w) g).
    { unfold canGrow. destruct (Rlt_dec (INR (d_ncomp (ew_model w))) g); [|right; tauto].
      destruct (c_dyna c); [|right; intuition congruence]. destruct (c_max c) as [x|]; [|left; auto].
      destruct (lt_dec (d_ncomp (ew_model w)) x); [left; auto|right; tauto]. }
    destruct Dc as [Dc|Dc]; [|specialize (N (or_introl Dc)); injection N as -> _; exact Ok].
    destruct Dec as [Dec|(t & Ht & H1 & H2)]; [specialize (N (or_intror Dec)); injection N as -> _; exact Ok|].
    destruct (Y Dc t Ht H1 H2) as (e2 & w' & E & Ch & Wk & _ & _ & Lw). injection E as -> _.
    eapply changed_ok; eauto. lra.
  - assert (Wo : wok lik c off nhyp h w) by (apply Ok; eapply nth_error_In; eauto).
    destruct (C61_death lik nhyp off (c_first c) index c h per kw low' append g e w eq_refl Ed Nd Hi Ew Wo Hp) as (m & _ & _ & _ & N & Y).
    cbn zeta in N, Y. rewrite B in N, Y. set (q := _ ++ _) in *.
    assert (Dc : canShrink c (ew_model w) g \/ ~ canShrink c (ew_model w) g).
    { unfold canShrink. destruct (Rlt_dec g (INR (d_ncomp (ew_model w)))); [|right; tauto].
      destruct (c_dyna c); [|right; intuition congruence].
      destruct (lt_dec (c_min c) (d_ncomp (ew_model w))); [left; auto|right; tauto]. }
    destruct Dc as [Dc|Dc]; [|specialize (N (or_introl Dc)); injection N as -> _; exact Ok].
    destruct (Rlt_dec (lik m q) low') as [X|X]; [specialize (N (or_intror X)); injection N as -> _; exact Ok|].
    destruct (Y Dc ltac:(lra)) as (e2 & w' & E & Ch & Wk & _ & _ & Lw). injection E as -> _.
    eapply changed_ok; eauto. lra.
Qed.

(** The structure engine.  [chain w ws]: every walker of the list is a variation of the one before it - the first of w - that passes the limit. *)
Fixpoint chain {M} (lik : M -> list R -> R) (vary : nat -> nat -> M -> option M) (locs : list nat) (low : R)
    (w : ewalker M) (ws : list (ewalker M)) : Prop :=
  match ws with
  | [] => True
  | x :: ws =>
      (exists t l, In l locs /\ vary t (l + 1) (ew_model w) = Some (ew_model x)) /\ ew_allp x = ew_allp w /\ ew_fit x = ew_fit w /\
      ew_logL x = lik (ew_model x) (ew_allp x) /\ (low <= ew_logL x)%R /\ chain lik vary locs low x ws
  end.

Lemma chain_app {M} lik vary locs low (ws : list (ewalker M)) : forall w x,
  chain lik vary locs low w (ws ++ [x]) <-> chain lik vary locs low w ws /\ chain lik vary locs low (last ws w) [x].
Proof.
  induction ws as [|y ws IH]; intros w x.
  - cbn [app chain last]. tauto.
  - cbn [app chain]. rewrite IH. replace (last (y :: ws) w) with (last ws y) by (destruct ws as [|z ws]; [reflexivity|]; cbn; clear; revert z; induction ws; intros; cbn; auto).
    cbn [chain]. tauto.
Qed.

Section Structure.
  Context {M : Type} (lik : M -> list R -> R) (vary : nat -> nat -> M -> option M) (npars plen : M -> nat) (nhyp : nat) (locs : list nat).
  (** a variation does not change the number of parameters *)
  Hypothesis same : forall t l m m', vary t l m = Some m' -> npars m' = npars m /\ plen m' = plen m.

  Lemma chain_check low ws : forall w, chain lik vary locs low w ws -> npars (ew_model (last ws w)) = npars (ew_model w) /\
     plen (ew_model (last ws w)) = plen (ew_model w) /\ ew_allp (last ws w) = ew_allp w.
  Proof using same.
    induction ws as [|x ws IH]; intros w C; [auto|]. destruct C as ((t & l & _ & V) & A & _ & _ & _ & C). apply IH in C.
    replace (last (x :: ws) w) with (last ws x) by (destruct ws as [|z ws]; [reflexivity|]; cbn; clear; revert z; induction ws; intros; cbn; auto).
    apply same in V. destruct C as (-> & -> & ->). rewrite A. tauto.
  Qed.

  Lemma structOnce_spec t kw low (append : bool) l e w : nth_error (en_list e) kw = Some w -> In l locs ->
    wcheck (npars (ew_model w)) (plen (ew_model w)) nhyp (ew_allp w) = true ->
    exists e' dt, structOnce lik vary npars plen nhyp t kw low (if append then length (en_list e) else kw) (l + 1) e = Some (e', dt) /\
      ((dt = 0 /\ e' = e) \/ (dt = 1 /\ exists w', changed e e' append kw w' /\ chain lik vary locs low w [w'])).
  Proof using same.
    intros Ew Hl Wc. unfold structOnce. rewrite Ew. destruct (vary t (l + 1) (ew_model w)) as [m|] eqn:V; [|eauto 8].
    destruct (Rle_dec low (lik m (ew_allp w))) as [H|H]; [|eauto 8].
    destruct (same _ _ _ _ V) as [-> ->]. rewrite Wc.
    destruct (setW_changed e append kw w m (ew_allp w) (lik m (ew_allp w)) (ew_fit w) Ew) as (w' & Ch & E1 & E2 & E3 & E4).
    eexists _, 1. split; [reflexivity|]. right. split; [reflexivity|]. exists w'. split; [exact Ch|].
    cbn. rewrite E1, E2, E3, E4. repeat split; auto. eauto.
  Qed.
End Structure.

(** With append, it adds one walker for every move, each a variation of the one before; the walkers that were there do not change. *)
Theorem C61_structure_append {M} (lik : M -> list R -> R) vary npars plen nhyp perm kw low (e : ens M) w :
  (forall t l m m', vary t l m = Some m' -> npars m' = npars m /\ plen m' = plen m) ->
  nth_error (en_list e) kw = Some w -> wcheck (npars (ew_model w)) (plen (ew_model w)) nhyp (ew_allp w) = true ->
  exists e' ws, structure lik vary npars plen nhyp perm kw low true e = Some (e', length ws) /\
    en_list e' = en_list e ++ ws /\ chain lik vary perm low w ws /\ length ws <= length perm /\
    map ew_id ws = seq (en_count e) (length ws) /\ en_count e' = en_count e + length ws.
Proof.
  intros same Ew Wc. unfold structure.
  enough (G : forall todo t ws0 e0 k, incl todo perm -> en_list e0 = en_list e ++ ws0 -> chain lik vary perm low w ws0 ->
     map ew_id ws0 = seq (en_count e) (length ws0) -> en_count e0 = en_count e + length ws0 ->
     nth_error (en_list e0) k = Some (last ws0 w) ->
     exists e' ws, structLoop lik vary npars plen nhyp t todo k low true (length ws0) e0 = Some (e', length ws) /\
       en_list e' = en_list e ++ ws /\ chain lik vary perm low w ws /\ length ws <= length ws0 + length todo /\
       map ew_id ws = seq (en_count e) (length ws) /\ en_count e' = en_count e + length ws).
  { destruct (G perm 0 [] e kw) as (e' & ws & E1 & E2);
      [apply incl_refl|now rewrite app_nil_r|exact Logic.I|reflexivity|cbn; lia|exact Ew|].
    exists e', ws. cbn in E2. tauto. }
  induction todo as [|p todo IH]; intros t ws0 e0 k In0 El Ch Id Cn Ek; cbn [structLoop].
  - exists e0, ws0. repeat split; auto. cbn. lia.
  - destruct (chain_check lik vary npars plen perm same low ws0 w Ch) as (C1 & C2 & C3).
    destruct (structOnce_spec lik vary npars plen nhyp perm same t k low true p e0 (last ws0 w) Ek) as (e1 & dt & E & D);
      [apply In0; now left|rewrite C1, C2, C3; exact Wc|].
    cbn [andb] in E. rewrite E. destruct D as [[-> ->]|[-> (w' & Chg & Cw)]].
    + cbn [Nat.ltb Nat.leb]. rewrite Nat.add_0_r. destruct (IH (S t) ws0 e0 k) as (e' & ws & E1 & E2 & E3 & E4 & E5); auto.
      { intros x Hx. apply In0. now right. }
      exists e', ws. cbn [length]. repeat split; auto; try tauto. lia.
    + cbn [Nat.ltb Nat.leb]. destruct Chg as (Cl & Ci & Cc).
      destruct (IH (S t) (ws0 ++ [w']) e1 (length (en_list e0))) as (e' & ws & E1 & E2 & E3 & E4 & E5).
      * intros x Hx. apply In0. now right.
      * now rewrite Cl, El, app_assoc.
      * apply chain_app. auto.
      * rewrite map_app, Id, app_length. cbn [length map]. rewrite seq_app. cbn. rewrite Ci, Cn. reflexivity.
      * rewrite Cc, Cn, app_length. cbn. lia.
      * rewrite Cl, nth_error_app2, Nat.sub_diag by lia. cbn. now rewrite last_last.
      * rewrite app_length in E1, E4. cbn [length] in E1, E4. exists e', ws. cbn [length]. repeat split; auto; try tauto. lia.
Qed.

(** Without append the walker is replaced: the last of the chain of variations stands in its place; the other walkers do not change. *)
Theorem C61_structure_inplace {M} (lik : M -> list R -> R) vary npars plen nhyp perm kw low (e : ens M) w :
  (forall t l m m', vary t l m = Some m' -> npars m' = npars m /\ plen m' = plen m) ->
  nth_error (en_list e) kw = Some w -> wcheck (npars (ew_model w)) (plen (ew_model w)) nhyp (ew_allp w) = true ->
  exists e' ws, structure lik vary npars plen nhyp perm kw low false e = Some (e', length ws) /\
    nth_error (en_list e') kw = Some (last ws w) /\ chain lik vary perm low w ws /\ length ws <= length perm /\
    ew_id (last ws w) = ew_id w /\ en_count e' = en_count e /\ length (en_list e') = length (en_list e) /\
    forall j, j <> kw -> nth_error (en_list e') j = nth_error (en_list e) j.
Proof.
  intros same Ew Wc. unfold structure.
  enough (G : forall todo t ws0 e0, incl todo perm -> chain lik vary perm low w ws0 ->
     nth_error (en_list e0) kw = Some (last ws0 w) -> ew_id (last ws0 w) = ew_id w -> en_count e0 = en_count e ->
     length (en_list e0) = length (en_list e) -> (forall j, j <> kw -> nth_error (en_list e0) j = nth_error (en_list e) j) ->
     exists e' ws, structLoop lik vary npars plen nhyp t todo kw low false (length ws0) e0 = Some (e', length ws) /\
       nth_error (en_list e') kw = Some (last ws w) /\ chain lik vary perm low w ws /\ length ws <= length ws0 + length todo /\
       ew_id (last ws w) = ew_id w /\ en_count e' = en_count e /\ length (en_list e') = length (en_list e) /\
       forall j, j <> kw -> nth_error (en_list e') j = nth_error (en_list e) j).
  { destruct (G perm 0 [] e) as (e' & ws & E1 & E2); auto; [apply incl_refl|exact Logic.I|]. exists e', ws. cbn in E2. tauto. }
  induction todo as [|p todo IH]; intros t ws0 e0 In0 Ch Ek Id Cn Ll Oth; cbn [structLoop].
  - exists e0, ws0. repeat split; auto. cbn. lia.
  - destruct (chain_check lik vary npars plen perm same low ws0 w Ch) as (C1 & C2 & C3).
    destruct (structOnce_spec lik vary npars plen nhyp perm same t kw low false p e0 (last ws0 w) Ek) as (e1 & dt & E & D);
      [apply In0; now left|rewrite C1, C2, C3; exact Wc|].
    rewrite E. destruct D as [[-> ->]|[-> (w' & Chg & Cw)]].
    + cbn [Nat.ltb Nat.leb]. rewrite Nat.add_0_r. destruct (IH (S t) ws0 e0) as (e' & ws & E1 & E2 & E3 & E4 & E5); auto.
      { intros x Hx. apply In0. now right. }
      exists e', ws. cbn [length]. repeat split; auto; try tauto; try lia.
    + cbn [Nat.ltb Nat.leb]. destruct Chg as (x & Ex & Ci & Cc & Cl & Ce & Co). rewrite Ek in Ex. injection Ex as <-.
      destruct (IH (S t) (ws0 ++ [w']) e1) as (e' & ws & E1 & E2 & E3 & E4 & E5).
      * intros x Hx. apply In0. now right.
      * apply chain_app. auto.
      * now rewrite last_last.
      * rewrite last_last. congruence.
      * congruence.
      * congruence.
      * intros j Hj. rewrite Co by auto. now apply Oth.
      * rewrite app_length in E1, E4. cbn [length] in E1, E4. exists e', ws. cbn [length]. repeat split; auto; try tauto; try lia.
Qed.

(** A constant background and a repeating model of one parameter per component; likelihood: minus the sum of the parameters.  The first
    try for the new component has too low a likelihood, the second is accepted.  Then the first component is taken away. *)
Example C61_example :
  let c := mkC 1 (Some 3) 1 1 true in
  let lik := fun (s : dstate R) (p : list R) => (- fold_right Rplus 0 p)%R in
  let u2d := fun (k : nat) (u : R) => (10 * u)%R in
  let w := mkEW 4 (mkD 1 1 2 [0; 0]%R) [1; 2]%R [0; 1]%Z (- 3)%R in
  let us := fun t => match t with O => [0.5]%R | S _ => [0.25]%R end in
  let e := mkEns 5 [w] in
  wok lik c 1 0 [] w /\
  birth lik u2d 0 1 2 (rep_grow c 1) (fun s => if 0 <? d_ncomp s then c_delta c else c_first c) 0 (-7)%R true 1.5%R us e
  = Some (mkEns 6 [w; mkEW 5 (mkD 2 2 3 [1; 2; 10 * 0.5]%R) [1; 2; 10 * 0.25]%R [0; 1; 2]%Z (- fold_right Rplus 0 [1; 2; 10 * 0.25])%R], 1) /\
  rep_shuffle 0%R 1 1 [0] 2 [1; 0] [1; 2; 3]%R = [1; 3; 2]%R /\
  death lik 0 1 (fun s => rep_shuffle 0%R 1 1 [0] (d_ncomp s) [1; 0]) (rep_shrink c 1) 0 (-7)%R false 1.5%R
        (mkEns 6 [mkEW 5 (mkD 2 2 3 [1; 2; 3]%R) [1; 2; 3]%R [0; 1; 2]%Z (-6)%R])
  = Some (mkEns 6 [mkEW 5 (mkD 1 1 2 [1; 3]%R) [1; 3]%R [0; 1]%Z (- fold_right Rplus 0 [1; 3])%R], 1).
Proof.
  cbn zeta. split; [|split; [|split]].
  - repeat split; cbn; auto; try lia; try lra.
  - unfold birth. cbn [en_list nth_error ew_model d_ncomp d_npbase ew_allp ew_fit].
    destruct (Rlt_dec (INR 1) 1.5) as [_|F]; [|exfalso; apply F; cbn; lra].
    set (bt := birth_try _ _ _ _).
    assert (E : bt = Some (Some (mkDW (mkD 2 2 3 [1; 2; 10 * 0.5]%R) [1; 2; 10 * 0.5]%R [0; 1; 2]%Z))) by reflexivity.
    rewrite E. clear E bt. cbn [dw_model dw_allpars d_npbase Nat.sub birthLoop].
    destruct (Rle_dec (-7) _) as [F|_]; [exfalso; cbn in F; lra|].
    change (assign [1; 2; 10 * 0.5]%R (seq (1 + 1) 1) _) with [1; 2; 10 * 0.25]%R.
    destruct (Rle_dec (-7) _) as [_|F]; [|exfalso; apply F; cbn; lra]. reflexivity.
  - reflexivity.
  - unfold death. cbn [en_list nth_error ew_model d_ncomp d_npbase ew_allp ew_fit].
    destruct (Rlt_dec 1.5 (INR 2)) as [_|F]; [|exfalso; apply F; cbn; lra].
    set (bt := death_try _ _ _ _ _).
    assert (E : bt = Some (Some (mkDW (mkD 1 1 2 [1; 3]%R) [1; 3]%R [0; 1]%Z))) by reflexivity.
    rewrite E. clear E bt. cbn [dw_model dw_allpars d_npbase Nat.sub].
    destruct (Rle_dec (-7) _) as [_|F]; [|exfalso; apply F; cbn; lra]. reflexivity.
Qed.

(** A model with one knot per component; a variation moves it one up; the likelihood is minus the square of the knot. *)
Example C61_structure_example :
  let lik := fun (m : R) (p : list R) => (- (m * m))%R in
  let vary := fun (t l : nat) (m : R) => Some (m + 1)%R in
  let w := mkEW 0 (-1)%R [5]%R [0]%Z (-1)%R in
  structure lik vary (fun _ => 1) (fun _ => 1) 0 [1; 0] 0 (-0.5)%R false (mkEns 1 [w])
  = Some (mkEns 1 [mkEW 0 (-1 + 1)%R [5]%R [0]%Z (- ((-1 + 1) * (-1 + 1)))%R], 1).
Proof.
  cbn zeta. unfold structure. cbn [structLoop]. unfold structOnce. cbn [en_list nth_error ew_model ew_allp ew_fit].
  destruct (Rle_dec (-0.5) _) as [_|F]; [|exfalso; apply F; lra]. cbn [wcheck length Nat.eqb Nat.add Nat.sub andb Nat.ltb Nat.leb setW en_list nth_error upd en_count ew_id ew_model ew_allp ew_fit].
  destruct (Rle_dec (-0.5) _) as [F|_]; [exfalso; lra|]. reflexivity.
Qed.

Print Assumptions C61_birth. Print Assumptions C61_death. Print Assumptions C61_death_components. Print Assumptions C61_history.
Print Assumptions C61_structure_append. Print Assumptions C61_structure_inplace.
