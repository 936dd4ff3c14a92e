(** C60: what the walkers of a nested sampler start with. *)
From Coq Require Import List Arith ZArith Reals Bool Lia Lra.
From Verif Require Import L_List M_Order P_Order M_Dynamic P_Dynamic P_Repeat T_Dynamic M_Start.
Import ListNotations.

Lemma NoDup_app_intro {A} (a b : list A) : NoDup a -> NoDup b -> (forall x, In x a -> In x b -> False) -> NoDup (a ++ b).
Proof.
  induction a as [|x a IH]; intros Na Nb D; [exact Nb|]. inversion Na; subst. cbn. constructor.
  - rewrite in_app_iff. intros [H|H]; [contradiction | apply (D x); [now left | exact H]].
  - apply IH; auto. intros y Y1 Y2. apply (D y); [now right | exact Y2].
Qed.

Lemma filter_all {A} (f : A -> bool) l : (forall x, In x l -> f x = true) -> filter f l = l.
Proof. induction l as [|x l IH]; intros H; [reflexivity|]. cbn. rewrite (H x) by now left. now rewrite IH by (intros; apply H; now right). Qed.

(** Without keep every parameter is fitted and every free hyper parameter; the fixed hyper parameters have their values ( the first
    one 0 when the problem has its own accuracies ). *)
Theorem C60_fitlist np hs hasAcc :
  exists fit allp, makeFitlist np hs hasAcc None = Some (fit, allp) /\
    (forall z, In z fit <->
       (0 <= z < Z.of_nat np)%Z \/ exists i, i < length hs /\ nth_error hs i = Some Free /\ z = (Z.of_nat i - Z.of_nat (length hs))%Z) /\
    NoDup fit /\ length allp = np + length hs /\
    forall i v, nth_error hs i = Some (FixedAt v) ->
      nth_error allp (np + i) = Some (if hasAcc && (i =? 0) then 0%R else v).
Proof.
  exists (fitlist0 np hs), (allpars0 np hs hasAcc). split; [reflexivity|]. unfold fitlist0, allpars0, hypIndex. split; [|split; [|split]].
  - intro z. rewrite in_app_iff, !in_map_iff. split.
    + intros [(y & <- & Hy)|(y & <- & Hy)]; [left; apply in_seq in Hy; lia|]. right. apply filter_In in Hy. destruct Hy as [Hy Hf].
      apply in_seq in Hy. exists y. split; [lia|]. split; [|reflexivity].
      rewrite (nth_error_nth' hs Free) by lia. destruct (nth y hs Free); [reflexivity|discriminate].
    + intros [H|(i & Hi & E & ->)]; [left; exists (Z.to_nat z); split; [lia|]; apply in_seq; lia|].
      right. exists i. split; [reflexivity|]. apply filter_In. split; [apply in_seq; lia|]. apply nth_error_nth with (d := Free) in E. now rewrite E.
  - apply NoDup_app_intro.
    + apply NoDup_map_in; [apply seq_NoDup|]. intros; lia.
    + apply NoDup_map_in; [apply NoDup_filter, seq_NoDup|]. intros; lia.
    + intros z H1 H2. apply in_map_iff in H1, H2. destruct H1 as (y & <- & Hy), H2 as (i & E & Hi). apply filter_In in Hi. destruct Hi as [Hi _].
      apply in_seq in Hi. lia.
  - rewrite app_length, repeat_length, map_length, seq_length. reflexivity.
  - intros i v E. rewrite nth_error_app2; rewrite repeat_length; [|lia]. replace (np + i - np) with i by lia.
    assert (Hi : i < length hs) by (apply nth_error_Some; congruence).
    rewrite nth_error_map, (nth_error_nth' _ 0), seq_nth by (rewrite ?seq_length; lia). cbn.
    apply nth_error_nth with (d := Free) in E. rewrite E. reflexivity.
Qed.

(** the position k of all parameters is kept when its number is a key of keep, or its ( negative ) index *)
Definition kept (keep : list (Z * R)) (n np k : nat) : option R :=
  match lookup keep (Z.of_nat k) with
  | Some v => Some v
  | None => if k <? np then None else lookup keep (Z.of_nat k - Z.of_nat n)
  end.
Definition indexOf (n np k : nat) : Z := if k <? np then Z.of_nat k else (Z.of_nat k - Z.of_nat n)%Z.

(** When all hyper parameters are free ( or there are none ), keep takes the kept parameters off the list and gives them their value. *)
Theorem C60_keep np hs hasAcc keep :
  (forall h, In h hs -> h = Free) ->
  let n := np + length hs in
  exists fit allp, makeFitlist np hs hasAcc (Some keep) = Some (fit, allp) /\
    fit = map (indexOf n np) (filter (fun k => match kept keep n np k with None => true | Some _ => false end) (seq 0 n)) /\
    length allp = n /\
    forall k v, k < n -> kept keep n np k = Some v -> nth_error allp k = Some v.
Proof.
  intros Hf n. unfold makeFitlist.
  assert (Ef : forall k, k < n -> nth_error (fitlist0 np hs) k = Some (indexOf n np k)).
  { intros k Hk. unfold fitlist0, hypIndex, indexOf. destruct (Nat.ltb_spec k np).
    - rewrite nth_error_app1 by (now rewrite map_length, seq_length).
      rewrite nth_error_map, (nth_error_nth' _ 0), seq_nth by (rewrite ?seq_length; lia). reflexivity.
    - rewrite nth_error_app2 by (now rewrite map_length, seq_length). rewrite map_length, seq_length.
      replace (filter (fun i => isFree (nth i hs Free)) (seq 0 (length hs))) with (seq 0 (length hs)).
      + rewrite nth_error_map, (nth_error_nth' _ 0), seq_nth by (rewrite ?seq_length; lia). cbn. f_equal. lia.
      + symmetry. apply filter_all. intros i Hi. apply in_seq in Hi.
        rewrite (Hf (nth i hs Free)); [reflexivity|]. apply nth_In. lia. }
  assert (L : forall ks allp fitl, NoDup ks -> (forall k, In k ks -> k < n) -> length allp = n ->
    exists allp', keepLoop keep (fitlist0 np hs) ks allp fitl =
      Some (fitl ++ map (indexOf n np) (filter (fun k => match kept keep n np k with None => true | Some _ => false end) ks), allp') /\
      length allp' = n /\ (forall k, ~ In k ks -> nth_error allp' k = nth_error allp k) /\
      (forall k v, In k ks -> kept keep n np k = Some v -> nth_error allp' k = Some v)).
  { induction ks as [|k ks IH]; intros allp fitl N B La; cbn [keepLoop].
    - exists allp. cbn. rewrite app_nil_r. repeat split; auto. intros k v [].
    - inversion N as [|? ? Nk N']; subst. assert (Hk : k < n) by (apply B; now left).
      assert (B' : forall j, In j ks -> j < n) by (intros; apply B; now right).
      assert (K : kept keep n np k = match lookup keep (Z.of_nat k) with Some v => Some v | None => lookup keep (indexOf n np k) end).
      { unfold kept, indexOf. destruct (lookup keep (Z.of_nat k)) eqn:E; [reflexivity|]. destruct (k <? np); congruence. }
      assert (Set_ : forall v, kept keep n np k = Some v -> exists allp',
         keepLoop keep (fitlist0 np hs) ks (upd k v allp) fitl =
         Some (fitl ++ map (indexOf n np) (filter (fun k => match kept keep n np k with None => true | Some _ => false end) (k :: ks)), allp') /\
         length allp' = n /\ (forall j, ~ In j (k :: ks) -> nth_error allp' j = nth_error allp j) /\
         (forall j w, In j (k :: ks) -> kept keep n np j = Some w -> nth_error allp' j = Some w)).
      { intros v E. destruct (IH (upd k v allp) fitl N' B') as (a & -> & La' & O & S1); [now rewrite upd_length|].
        exists a. cbn [filter]. rewrite E. split; [reflexivity|]. split; [exact La'|]. split.
        - intros j Hj. rewrite O by (intro; apply Hj; now right). apply upd_nth_other. intros ->. apply Hj. now left.
        - intros j w [<-|Hj] Ew; [|now apply S1]. rewrite O by exact Nk. rewrite E in Ew. injection Ew as <-. apply upd_nth_same. lia. }
      destruct (lookup keep (Z.of_nat k)) as [v|] eqn:E1; [now apply Set_|].
      rewrite (Ef k Hk). destruct (lookup keep (indexOf n np k)) as [v|] eqn:E2; [now apply Set_|].
      destruct (IH allp (fitl ++ [indexOf n np k]) N' B' La) as (a & -> & La' & O & S1).
      exists a. cbn [filter]. rewrite K. cbn [map]. rewrite <- app_assoc. split; [reflexivity|]. split; [exact La'|]. split.
      + intros j Hj. apply O. intro. apply Hj. now right.
      + intros j w [<-|Hj] Ew; [congruence|now apply S1]. }
  destruct (L (seq 0 n) (allpars0 np hs hasAcc) [] (seq_NoDup _ _)) as (a & E & La & _ & S1).
  - intros k Hk. apply in_seq in Hk. lia.
  - unfold allpars0. rewrite app_length, repeat_length, map_length, seq_length. reflexivity.
  - fold n. rewrite E. eexists. exists a. split; [reflexivity|]. split; [reflexivity|]. split; [exact La|].
    intros k v Hk. apply S1. apply in_seq. lia.
Qed.

(** In terms of the dictionary itself: each parameter in it, anywhere, gets its value and is not fitted; a parameter that is not in it is fitted. *)
Theorem C60_keep_values np hs hasAcc keep : (forall h, In h hs -> h = Free) -> NoDup (map fst keep) ->
  exists fit allp, makeFitlist np hs hasAcc (Some keep) = Some (fit, allp) /\
    forall k, k < np -> (forall v, In (Z.of_nat k, v) keep -> nth_error allp k = Some v /\ ~ In (Z.of_nat k) fit) /\
                        (~ In (Z.of_nat k) (map fst keep) -> In (Z.of_nat k) fit).
Proof.
  intros Hf N. destruct (C60_keep np hs hasAcc keep Hf) as (fit & allp & E & F & _ & V). exists fit, allp. split; [exact E|].
  assert (G : forall l k v, NoDup (map fst l) -> In (k, v) l -> lookup l k = Some v).
  { clear. induction l as [|[j w] l IH]; intros k v N I; [destruct I|]. cbn in N |- *. inversion N as [|? ? Nj N']; subst. destruct I as [Q|I].
    - injection Q as -> ->. now rewrite Z.eqb_refl.
    - destruct (Z.eqb_spec j k) as [->|]; [|now apply IH]. exfalso. apply Nj. apply in_map_iff. now exists (k, v). }
  assert (G' : forall l k, ~ In k (map fst l) -> lookup l k = None).
  { clear. induction l as [|[j w] l IH]; intros k I; [reflexivity|]. cbn in I |- *. destruct (Z.eqb_spec j k) as [->|]; [exfalso; apply I; now left|]. apply IH. tauto. }
  intros k Hk. split.
  - intros v I. assert (K : kept keep (np + length hs) np k = Some v) by (unfold kept; now rewrite (G keep (Z.of_nat k) v N I)). split.
    + apply V; [lia|exact K].
    + rewrite F. intros M. apply in_map_iff in M. destruct M as (j & Q & M). apply filter_In in M. destruct M as [M KJ]. apply in_seq in M.
      assert (j = k). { unfold indexOf in Q. destruct (Nat.ltb_spec j np); lia. } subst j. rewrite K in KJ. discriminate.
  - intros I. rewrite F. apply in_map_iff. exists k. split; [unfold indexOf; destruct (Nat.ltb_spec k np); [reflexivity|lia]|].
    apply filter_In. split; [apply in_seq; lia|]. unfold kept. rewrite (G' _ _ I). destruct (Nat.ltb_spec k np); [reflexivity|lia].
Qed.
Example C60_keep_values_ex : makeFitlist 3 [Free] false (Some [(0%Z, 3%R); (2%Z, 5%R)]) = Some ([1; -1]%Z, [3; 0; 5; 0]%R) /\ NoDup (map fst [(0%Z, 3%R); (2%Z, 5%R)]).
Proof. split; [reflexivity|]. cbn. repeat constructor; cbn; intros X; repeat (destruct X as [X|X]; [discriminate|]); exact X. Qed.

(** When any hyper parameter is fixed - as the noise scale is by default - keep does not work: the loop runs over all parameters but
    looks in the list of fitted ones, and ends with an IndexError, unless the last hyper parameter is kept by its positive number. *)
Theorem C60_keep_refuted np hs hasAcc keep :
  (exists v, In (FixedAt v) hs) -> lookup keep (Z.of_nat (np + length hs - 1)) = None ->
  makeFitlist np hs hasAcc (Some keep) = None.
Proof.
  intros [v Hv] K. unfold makeFitlist.
  assert (Lh : 0 < length hs) by (destruct hs; [destruct Hv | cbn; lia]).
  assert (Lf : length (fitlist0 np hs) < np + length hs).
  { unfold fitlist0, hypIndex. rewrite app_length, !map_length, seq_length.
    enough (length (filter (fun i => isFree (nth i hs Free)) (seq 0 (length hs))) < length hs) by lia.
    apply In_nth with (d := Free) in Hv. destruct Hv as (i & Hi & Ei).
    assert (G : forall l, (length (filter (fun i => isFree (nth i hs Free)) l) <= length l) /\
       (In i l -> length (filter (fun i => isFree (nth i hs Free)) l) < length l)).
    { induction l as [|a l [I1 I2]]; [split; [cbn; lia|intros []]|]. cbn [filter length]. split.
      - destruct (isFree (nth a hs Free)); cbn; lia.
      - intros [->|H]; [rewrite Ei; cbn; lia|]. specialize (I2 H). destruct (isFree (nth a hs Free)); cbn; lia. }
    specialize (G (seq 0 (length hs))). rewrite seq_length in G. apply G. apply in_seq. lia. }
  replace (np + length hs) with ((np + length hs - 1) + 1) at 1 by lia. rewrite seq_app. cbn [seq Nat.add].
  generalize (allpars0 np hs hasAcc) (@nil Z). generalize (seq 0 (np + length hs - 1)).
  induction l as [|k l IH]; intros allp fitl; cbn [app keepLoop].
  - rewrite K. assert (E : nth_error (fitlist0 np hs) (np + length hs - 1) = None) by (apply nth_error_None; lia). now rewrite E.
  - destruct (lookup keep (Z.of_nat k)); [apply IH|]. destruct (nth_error (fitlist0 np hs) k); [|reflexivity].
    destruct (lookup keep z); apply IH.
Qed.

(** Two parameters, one of them kept, and a fixed noise scale. *)
Example C60_keep_example :
  makeFitlist 2 [FixedAt 1] false (Some [(0%Z, 3%R)]) = None /\
  makeFitlist 2 [Free] false (Some [(0%Z, 3%R)]) = Some ([1; -1]%Z, [3; 0; 0]%R) /\
  makeFitlist 2 [FixedAt 1] false None = Some ([0; 1]%Z, [0; 0; 1]%R).
Proof. repeat split. Qed.

(** an index list of an array of n: within bounds and no entry named twice *)
Definition proper (n : nat) (fit : list Z) : Prop :=
  NoDup (map (resolve n) fit) /\ Forall (fun z => - Z.of_nat n <= z < Z.of_nat n)%Z fit.

Lemma resolve_lt n z : (- Z.of_nat n <= z < Z.of_nat n)%Z -> resolve n z < n.
Proof. intros H. unfold resolve. destruct (Z.leb_spec 0 z); lia. Qed.

Lemma assignZ_spec (u2d : Z -> R -> R) p fit u : proper (length p) fit -> length u = length fit ->
  let q := assignZ p fit (map (fun fu => u2d (fst fu) (snd fu)) (combine fit u)) in
  length q = length p /\
  (forall j f x, nth_error fit j = Some f -> nth_error u j = Some x -> nth_error q (resolve (length p) f) = Some (u2d f x)) /\
  (forall k, ~ In k (map (resolve (length p)) fit) -> nth_error q k = nth_error p k).
Proof.
  intros [N B] Lu. cbn zeta. unfold assignZ. split; [apply assign_length|]. split.
  - intros j f x Hf Hx. apply assign_same with (j := j); auto.
    + now rewrite nth_error_map, Hf.
    + apply resolve_lt. rewrite Forall_forall in B. apply B. eapply nth_error_In; eauto.
    + rewrite nth_error_map. enough (E : nth_error (combine fit u) j = Some (f, x)) by now rewrite E.
      clear - Hf Hx Lu. revert fit u Hf Hx Lu. induction j; intros [|a fit] [|b u] Hf Hx Lu; try discriminate; cbn in *; [congruence|].
      apply IHj; auto.
  - intros k Hk. now apply assign_other.
Qed.

(** A model that is not dynamic: the engine ends with a point at which the likelihood is finite; every fitted parameter is the prior
    value of the unit value of one of the tries - of one and the same try - and everything else is as it was. *)
Theorem C60_static lik u2d growf off s fit allp tries allp' fit' L s' :
  proper (length allp) fit -> (forall t, In t tries -> length (snd t) = length fit) ->
  start lik u2d growf false off s fit allp tries = Some (allp', fit', L, s') ->
  fit' = fit /\ s' = s /\ lik (d_ncomp s) allp' = Some L /\ length allp' = length allp /\
  (exists t, In t tries /\ forall j f u, nth_error fit j = Some f -> nth_error (snd t) j = Some u ->
     nth_error allp' (resolve (length allp) f) = Some (u2d f u)) /\
  forall k, ~ In k (map (resolve (length allp)) fit) -> nth_error allp' k = nth_error allp k.
Proof.
  intros P. unfold start. generalize (length allp) at 1 as npar. intros npar. generalize (d_npchain s) as onp. intros onp.
  revert allp P. induction tries as [|[d u] tries IH]; intros allp P Lu E; [discriminate|]. cbn [startLoop] in E. cbn in E.
  destruct (assignZ_spec u2d allp fit u P) as (Lq & Sq & Oq); [apply (Lu (d, u)); now left|].
  set (q := assignZ _ _ _) in *. destruct (lik (d_ncomp s) q) as [L0|] eqn:El.
  - injection E as <- <- <- <-. repeat split; auto. exists (d, u). split; [now left|]. exact Sq.
  - apply IH in E; [|now rewrite Lq|intros t Ht; apply Lu; now right].
    rewrite Lq in E. destruct E as (-> & -> & El' & Ll & (t & Ht & St) & Ot). repeat split; auto.
    + exists t. split; [now right|exact St].
    + intros k Hk. rewrite Ot by auto. now apply Oq.
Qed.

(** The growth of a repeating model, as the engine calls it. *)
Definition growRep (c : dconf) (off : nat) (s : dstate R) : option (dstate R * bool) :=
  rep_grow c off (repeat 0%R (if 0 <? d_ncomp s then c_delta c else c_first c)) s.

Definition allFit (nhyp : nat) (h : list Z) (s : dstate R) (fit : list Z) : Prop :=
  fit = map Z.of_nat (seq 0 (d_npchain s)) ++ h.

(** one growth, at the true offset or a smaller one *)
Lemma growRep_step c off off' nhyp h s fit s1 : 0 < c_delta c -> 0 < c_first c -> off' <= off ->
  Forall (fun x => - Z.of_nat nhyp <= x < 0)%Z h ->
  dyn_ok (rep_count c) c off s -> allFit nhyp h s fit -> growRep c off' s = Some (s1, true) ->
  exists fit1, alterFitindex fit (d_npbase s) (Z.of_nat (d_npchain s1) - Z.of_nat (d_npchain s)) off' = Some fit1 /\
    allFit nhyp h s1 fit1 /\ dyn_ok (rep_count c) c off s1 /\ d_ncomp s1 = S (d_ncomp s) /\ 
    d_npchain s1 = d_npchain s + (d_npbase s1 - d_npbase s) /\ d_npbase s <= d_npbase s1.
Proof.
  intros Hd Hf Ho Fh (W & C & Lp & K) Ef G. unfold growRep, rep_grow in G.
  destruct (negb (c_dyna c)); [discriminate|]. destruct (at_max c (d_ncomp s)) eqn:M; [discriminate|]. apply at_max_false in M.
  set (d := if 0 <? d_ncomp s then c_delta c else c_first c) in *. assert (D0 : 0 < d) by (unfold d; destruct (0 <? d_ncomp s); auto).
  destruct (grow_by d off' (repeat 0%R d) s) as [t|] eqn:X; [|discriminate]. injection G as <-.
  pose proof X as X'. apply grow_by_spec in X'; auto. destruct X' as (E1 & E2 & E3 & E4 & _ & E5 & E6).
  assert (Nc : d_npchain t = d_npchain s + d).
  { unfold grow_by in X. destruct (alterParameters _ _ _ _ _); [|discriminate]. injection X as <-. reflexivity. }
  rewrite Nc. replace (Z.of_nat (d_npchain s + d) - Z.of_nat (d_npchain s))%Z with (Z.of_nat d) by lia.
  assert (Gf : good_fit (length (d_pars s)) (length (repeat 0%R nhyp)) (map Z.of_nat (seq 0 (d_npchain s))) h).
  { rewrite Lp, repeat_length. now apply full_good. }
  assert (Ap : alterParameters (d_pars s) (d_npbase s) (Z.of_nat d) off' (repeat 0%R d) = Some (d_pars t)).
  { unfold grow_by in X. destruct (alterParameters _ _ _ _ _); [|discriminate]. injection X as <-. reflexivity. }
  destruct (C14_grow R 0%R _ (repeat 0%R nhyp) _ h _ _ _ _ _ D0 Gf Ap) as (f' & a & b & F1 & _ & _ & _ & _ & F6).
  rewrite Ef. exists (f' ++ h). split; [exact F1|]. split; [|split; [|lia]].
  - unfold allFit. rewrite F6, E3; [reflexivity|]. rewrite map_length, seq_length. auto.
  - repeat split; auto.
    + destruct W. lia.
    + rewrite E1. destruct (c_max c); auto. lia.
    + rewrite E1, E2, C. unfold d. destruct (d_ncomp s); cbn [Nat.ltb Nat.leb rep_count]; rewrite ?Nat.add_1_r; cbn; lia.
    + lia.
Qed.

Lemma growLoop_ok c off off' nhyp h draws : 0 < c_delta c -> 0 < c_first c -> off' <= off ->
  Forall (fun x => - Z.of_nat nhyp <= x < 0)%Z h -> forall s fit s1 fit1,
  dyn_ok (rep_count c) c off s -> allFit nhyp h s fit -> growLoop (growRep c) off' s fit draws = Some (s1, fit1) ->
  allFit nhyp h s1 fit1 /\ dyn_ok (rep_count c) c off s1 /\ d_ncomp s <= d_ncomp s1 /\ d_npchain s <= d_npchain s1.
Proof.
  intros Hd Hf Ho Fh. induction draws as [|g draws IH]; intros s fit s1 fit1 Ok Ef E; [discriminate|]. cbn [growLoop] in E.
  destruct (Rlt_dec _ _); [|injection E as <- <-; auto].
  destruct (growRep c off' s) as [[s2 [|]]|] eqn:G; [|injection E as <- <-; auto|discriminate].
  destruct (growRep_step c off off' nhyp h s fit s2 Hd Hf Ho Fh Ok Ef G) as (f2 & X2 & A2 & O2 & N2 & C2 & B2). rewrite X2 in E.
  destruct (IH _ _ _ _ O2 A2 E) as (A3 & O3 & L3 & L4). repeat split; auto; try apply O3; lia.
Qed.

(** A dynamic model of which all parameters are fitted: after any number of tries the lists fit the model again - as many values as
    the model and the error distribution have parameters, and all indices of the model - the number of components stays within
    its limits, it does not decrease, and every fitted value is the prior value of a unit value of one try. *)
Theorem C60_dynamic lik u2d c off nhyp h s fit allp tries allp' fit' L s' :
  0 < c_delta c -> 0 < c_first c ->
  dyn_ok (rep_count c) c off s -> length allp = d_npchain s + nhyp ->
  Forall (fun x => - Z.of_nat nhyp <= x < 0)%Z h -> NoDup h ->
  fit = map Z.of_nat (seq 0 (d_npchain s)) ++ h ->
  start lik u2d (growRep c) true off s fit allp tries = Some (allp', fit', L, s') ->
  fit' = map Z.of_nat (seq 0 (d_npchain s')) ++ h /\ length allp' = d_npchain s' + nhyp /\
  dyn_ok (rep_count c) c off s' /\ d_ncomp s <= d_ncomp s' /\ lik (d_ncomp s') allp' = Some L /\
  exists t, In t tries /\ (length (snd t) = length fit' -> forall j f u, nth_error fit' j = Some f -> nth_error (snd t) j = Some u ->
     nth_error allp' (resolve (length allp') f) = Some (u2d f u)).
Proof.
  intros Hd Hf Ok La Fh Nh Ef. unfold start. rewrite La. generalize (le_n (d_npchain s)). generalize (d_npchain s) at 1 3 4 as onp.
  generalize (le_n off). generalize off at 1 3 as off'. revert s fit allp Ok La Ef.
  induction tries as [|[d u] tries IH]; intros s fit allp Ok La Ef off' Ho onp Hn E; [discriminate|]. cbn [startLoop] in E.
  destruct (growLoop (growRep c) off' s fit d) as [[s1 fit1]|] eqn:G; [|discriminate].
  destruct (growLoop_ok c off off' nhyp h d Hd Hf Ho Fh s fit s1 fit1 Ok Ef G) as (A1 & O1 & N1 & C1).
  set (allp0 := repeat 0%R (onp + nhyp + d_npchain s1 - onp)) in *.
  assert (L0 : length allp0 = d_npchain s1 + nhyp) by (unfold allp0; rewrite repeat_length; lia).
  set (q := assignZ _ _ _) in *.
  assert (Lq : length q = d_npchain s1 + nhyp) by (unfold q, assignZ; now rewrite assign_length).
  destruct (lik (d_ncomp s1) q) as [L1|] eqn:El.
  - injection E as <- <- <- <-. split; [exact A1|]. split; [exact Lq|]. split; [exact O1|]. split; [exact N1|]. split; [exact El|].
    exists (d, u). split; [now left|]. cbn [snd]. intros Lu.
    assert (P : proper (length allp0) fit1).
    { rewrite L0. unfold allFit in A1. subst fit1. split.
      - rewrite map_app. apply NoDup_app_intro.
        + rewrite map_map. apply NoDup_map_in; [apply seq_NoDup|]. intros x y Hx Hy. unfold resolve.
          destruct (Z.leb_spec 0 (Z.of_nat x)), (Z.leb_spec 0 (Z.of_nat y)); lia.
        + rewrite Forall_forall in Fh. apply NoDup_map_in; [exact Nh|]. intros x y Hx Hy. apply Fh in Hx, Hy. unfold resolve.
          destruct (Z.leb_spec 0 x), (Z.leb_spec 0 y); lia.
        + intros x X1 X2. apply in_map_iff in X1, X2. destruct X1 as (a & Ea & Ha), X2 as (b & Eb & Hb).
          apply in_map_iff in Ha. destruct Ha as (a' & <- & Ha). apply in_seq in Ha. rewrite Forall_forall in Fh. apply Fh in Hb.
          unfold resolve in *. destruct (Z.leb_spec 0 (Z.of_nat a')), (Z.leb_spec 0 b); lia.
      - apply Forall_app. split; [|eapply Forall_impl; [|exact Fh]; cbn; lia]. apply Forall_forall. intros x Hx.
        apply in_map_iff in Hx. destruct Hx as (a & <- & Ha). apply in_seq in Ha. lia. }
    destruct (assignZ_spec u2d allp0 fit1 u P Lu) as (_ & Sq & _). fold q in Sq. intros j f x Hj Hx. rewrite Lq, <- L0. eauto.
  - apply (IH s1 fit1 q O1 Lq A1 0 (Nat.le_0_l off) onp) in E; [|lia].
    destruct E as (E1 & E2 & E3 & E4 & E5 & t & Ht & St). repeat split; auto; try apply E3; [lia|].
    exists t. split; [now right|exact St].
Qed.

(** In a dynamic start everything that is not fitted is set to 0: the values of kept parameters and of fixed hyper parameters, the
    noise scale for one, are lost. *)
Theorem C60_fixed_refuted lik u2d growf off s fit allp tries allp' fit' L s' :
  start lik u2d growf true off s fit allp tries = Some (allp', fit', L, s') ->
  forall k, k < length allp' -> ~ In k (map (resolve (length allp')) fit') -> nth_error allp' k = Some 0%R.
Proof.
  unfold start. generalize (length allp) as npar, (d_npchain s) as onp. intros npar onp. revert off s fit allp.
  induction tries as [|[d u] tries IH]; intros off s fit allp E; [discriminate|]. cbn [startLoop] in E.
  destruct (growLoop growf off s fit d) as [[s1 fit1]|]; [|discriminate].
  set (q := assignZ _ _ _) in *. destruct (lik (d_ncomp s1) q); [|exact (IH _ _ _ _ E)].
  injection E as <- <- <- <-. intros k Hk Hi. unfold q, assignZ in *. rewrite assign_length in *. rewrite assign_other by exact Hi.
  rewrite repeat_length in Hk. now apply nth_error_repeat.
Qed.

(** A repeating model of one parameter per component, one component, no other model; a noise scale fixed at 1 becomes 0; the second
    draw of the number of components stops the growth. *)
Example C60_fixed_example :
  let c := mkC 0 None 1 1 true in
  start (fun _ _ => Some 0%R) (fun _ u => (2 * u)%R) (growRep c) true 0 (mkD 1 1 1 [0%R]) [0%Z] [0; 1]%R
        [([1.5; 1.5]%R, [0.25; 0.75]%R)]
  = Some ([(2 * 0.25)%R; (2 * 0.75)%R; 0%R], [0%Z; 1%Z], 0%R, mkD 2 2 2 [0; 0]%R).
Proof.
  cbn zeta. unfold start. cbn [startLoop growLoop d_ncomp].
  destruct (Rlt_dec (INR 1) 1.5) as [_|F]; [|exfalso; apply F; cbn; lra]. 
  change (growRep (mkC 0 None 1 1 true) 0 (mkD 1 1 1 [0%R])) with (Some (mkD 2 2 2 [0; 0]%R, true)).
  cbn - [INR growRep].
  destruct (Rlt_dec (INR 2) 1.5) as [F|_]; [exfalso; cbn in F; lra|]. reflexivity.
Qed.

(** When the first try of a dynamic model fails, the next growth of the model starts from the wrong place in the list of indices.
    Two parameters, of which the second is kept, before the dynamic model: the first try adds nothing, its likelihood is not finite;
    the second adds a component.  The kept parameter ends up among the fitted ones: it gets a value from the prior, and the one that
    was fitted is left at 0. *)
Theorem C60_retry_refuted :
  let c := mkC 0 None 1 1 true in
  let lik := fun (n : nat) (p : list R) => if n =? 1 then None else Some 0%R in
  let one := ([0]%R, [0.5; 0.5; 0.5]%R) in
  let two := ([1.5; 1.5]%R, [0.5; 0.5; 0.5; 0.5]%R) in
  let s := mkD 1 1 3 [0; 0; 0]%R in
  start lik (fun _ u => u) (growRep c) true 2 s [0; 2; -1]%Z [0; 7; 0; 0]%R [one; two]
  = Some ([0.5; 0.5; 0; 0.5; 0.5]%R, [0; 1; 3; -1]%Z, 0%R, mkD 2 2 4 [0; 0; 0; 0]%R) /\
  start lik (fun _ u => u) (growRep c) true 2 s [0; 2; -1]%Z [0; 7; 0; 0]%R [two]
  = Some ([0.5; 0; 0.5; 0.5; 0.5]%R, [0; 2; 3; -1]%Z, 0%R, mkD 2 2 4 [0; 0; 0; 0]%R).
Proof.
  cbn zeta. unfold start. cbn [startLoop growLoop d_ncomp]. split.
  - destruct (Rlt_dec (INR 1) 0) as [F|_]; [exfalso; cbn in F; lra|].
    cbn [d_ncomp Nat.eqb]. cbn [startLoop growLoop d_ncomp].
    destruct (Rlt_dec (INR 1) 1.5) as [_|F]; [|exfalso; apply F; cbn; lra]. 
    change (growRep (mkC 0 None 1 1 true) 0 (mkD 1 1 3 [0; 0; 0]%R)) with (Some (mkD 2 2 4 [0; 0; 0; 0]%R, true)). cbn - [INR growRep].
    destruct (Rlt_dec (INR 2) 1.5) as [F|_]; [exfalso; cbn in F; lra|]. reflexivity.
  - destruct (Rlt_dec (INR 1) 1.5) as [_|F]; [|exfalso; apply F; cbn; lra]. 
    change (growRep (mkC 0 None 1 1 true) 2 (mkD 1 1 3 [0; 0; 0]%R)) with (Some (mkD 2 2 4 [0; 0; 0; 0]%R, true)). cbn - [INR growRep].
    destruct (Rlt_dec (INR 2) 1.5) as [F|_]; [exfalso; cbn in F; lra|]. reflexivity.
Qed.

(** All parameters fitted, a failing first try: a case of [C60_dynamic]. *)
Example C60_dynamic_example :
  let c := mkC 0 None 1 1 true in
  let lik := fun (n : nat) (p : list R) => if n =? 1 then None else Some 0%R in
  start lik (fun _ u => u) (growRep c) true 2 (mkD 1 1 3 [0; 0; 0]%R) [0; 1; 2; -1]%Z [0; 0; 0; 0]%R
    [([0]%R, [0.5; 0.5; 0.5; 0.5]%R); ([1.5; 1.5]%R, [0.1; 0.2; 0.3; 0.4; 0.5]%R)]
  = Some ([0.1; 0.2; 0.3; 0.4; 0.5]%R, [0; 1; 2; 3; -1]%Z, 0%R, mkD 2 2 4 [0; 0; 0; 0]%R).
Proof.
  cbn zeta. unfold start. cbn [startLoop growLoop d_ncomp].
  destruct (Rlt_dec (INR 1) 0) as [F|_]; [exfalso; cbn in F; lra|].
  cbn [d_ncomp Nat.eqb]. cbn [startLoop growLoop d_ncomp].
  destruct (Rlt_dec (INR 1) 1.5) as [_|F]; [|exfalso; apply F; cbn; lra]. 
    change (growRep (mkC 0 None 1 1 true) 0 (mkD 1 1 3 [0; 0; 0]%R)) with (Some (mkD 2 2 4 [0; 0; 0; 0]%R, true)). cbn - [INR growRep].
  destruct (Rlt_dec (INR 2) 1.5) as [F|_]; [exfalso; cbn in F; lra|]. reflexivity.
Qed.
Example C60_static_example :
  start (fun _ p => if Rlt_dec (nth 0 p 0%R) 1 then None else Some 5%R) (fun _ u => (2 * u)%R) (growRep (mkC 0 None 1 1 true)) false 0
    (mkD 0 0 0 []) [0]%Z [0; 7]%R [([], [0.25]%R); ([], [0.75]%R)]
  = Some ([(2 * 0.75)%R; 7%R], [0%Z], 5%R, mkD 0 0 0 []).
Proof.
  unfold start. cbn. destruct (Rlt_dec (2 * 0.25) 1) as [_|F]; [|exfalso; lra]. cbn.
  destruct (Rlt_dec (2 * 0.75) 1) as [F|_]; [exfalso; lra|]. reflexivity.
Qed.

Print Assumptions C60_fitlist. Print Assumptions C60_keep. Print Assumptions C60_keep_refuted.
Print Assumptions C60_static. Print Assumptions C60_dynamic. Print Assumptions C60_fixed_refuted. Print Assumptions C60_retry_refuted.
Print Assumptions C60_keep_values.
