(** C89: numerical derivatives and the checks made with them. *)
From Coquelicot Require Import Coquelicot.
From Coq Require Import Reals List ZArith Bool Arith Lia Lra.
From Verif Require Import M_Order M_Numer P_Numer.
Import ListNotations.
Local Open Scope R_scope.

(** *** makeNext: the items from the k-th on, thereafter the last one *)
Theorem C89_next x k n i : x <> [] -> (i < n)%nat -> nth i (makeNext x k n) 0 = nth (Nat.min (k + i) (length x - 1)) x 0.
Proof.
  intros Ne. unfold makeNext.
  assert (L1 : (1 <= length x)%nat) by (destruct x; [congruence|cbn; lia]).
  assert (La : last x 0 = nth (length x - 1) x 0).
  { clear. induction x as [|a [|b l] IH]; [reflexivity|reflexivity|]. change (last (a :: b :: l) 0) with (last (b :: l) 0). rewrite IH.
    cbn [length]. replace (S (S (length l)) - 1)%nat with (S (S (length l) - 1)) by lia. reflexivity. }
  enough (G : forall n i k xn, (i < n)%nat -> ((length x <= k)%nat -> xn = nth (length x - 1) x 0) ->
    nth i (yields x n (k, xn)) 0 = nth (Nat.min (k + i) (length x - 1)) x 0) by (intro Hi; apply G; [exact Hi|intros _; exact La]).
  clear n i k. induction n as [|n IH]; intros i k xn Hi Hx; [lia|]. cbn [yields nextItem].
  destruct (nth_error x k) as [v|] eqn:E.
  - assert (K : (k < length x)%nat) by (apply nth_error_Some; congruence). pose proof (nth_error_nth _ _ 0 E) as Ev.
    destruct i as [|i]; cbn [nth].
    + rewrite Nat.add_0_r. replace (Nat.min k (length x - 1)) with k by lia. symmetry; exact Ev.
    + rewrite IH; [f_equal; lia|lia|]. intro Q. rewrite <- Ev. f_equal. lia.
  - apply nth_error_None in E. destruct i as [|i]; cbn [nth].
    + rewrite Hx by exact E. f_equal. lia.
    + rewrite IH; [f_equal; lia|lia|]. intros _. apply Hx. exact E.
Qed.
Print Assumptions C89_next.
Lemma makeNext_length x k n : length (makeNext x k n) = n.
Proof.
  unfold makeNext. generalize (k, last x 0). induction n as [|n IH]; intro st; [reflexivity|]. cbn [yields]. destruct (nextItem x st). cbn. rewrite IH. reflexivity.
Qed.
Example C89_next_example : makeNext [3; 5] 0 4 = [3; 5; 5; 5].
Proof. reflexivity. Qed.

(** *** Partials *)
Lemma upd_twice {A} k (u v : A) l : upd k v (upd k u l) = upd k v l.
Proof. revert k; induction l as [|a l IH]; intros [|k]; cbn; [reflexivity..|]. rewrite IH. reflexivity. Qed.
Lemma upd_get k u l : (k < length l)%nat -> nth k (upd k u l) 0 = u.
Proof. revert k; induction l as [|a l IH]; intros [|k] H; cbn in *; try lia; [reflexivity|]. apply IH. lia. Qed.
Lemma upd_id k l : upd k (nth k l 0) l = l.
Proof. revert k; induction l as [|a l IH]; intros [|k]; cbn; [reflexivity..|]. rewrite IH. reflexivity. Qed.
Lemma upd_len {A} k (u : A) l : length (upd k u l) = length l.
Proof. revert k; induction l as [|a l IH]; intros [|k]; cbn; [reflexivity..|]. rewrite IH. reflexivity. Qed.
Lemma combine_map {A B C} (g : A -> B) (h : A -> C) l : combine (map g l) (map h l) = map (fun x => (g x, h x)) l.
Proof. induction l as [|a l IH]; [reflexivity|]. cbn. rewrite IH. reflexivity. Qed.

(** The difference quotient for parameter k with step dp *)
Definition quotient {X} (f : list R -> X -> R) (params : list R) (k : nat) (dp : R) (x : X) : R :=
  (f (upd k (nth k params 0 + dp / 2) params) x - f (upd k (nth k params 0 - dp / 2) params) x) / dp.

Lemma partialLoop_spec {X} (f : list R -> X -> R) xs params todo : (forall k dp, In (k, dp) todo -> (k < length params)%nat) ->
  partialLoop f xs params todo params = Some (map (fun kd => map (quotient f params (fst kd) (snd kd)) xs) todo).
Proof.
  induction todo as [|[k dp] r IH]; intro H; [reflexivity|]. cbn [partialLoop map fst snd].
  assert (K : (k < length params)%nat) by (apply (H k dp); left; reflexivity).
  destruct (Nat.ltb_spec k (length params)); [|lia]. rewrite upd_get by exact K. rewrite !upd_twice, upd_id.
  rewrite IH by (intros; apply (H k0 dp0); right; assumption). f_equal. f_equal.
  rewrite combine_map, map_map. apply map_ext. intro x. unfold quotient. cbn [fst snd].
  replace (nth k params 0 + 0.5 * dp) with (nth k params 0 + dp / 2) by lra.
  replace (nth k params 0 + dp / 2 - dp) with (nth k params 0 - dp / 2) by lra. reflexivity.
Qed.

(** Column j of strictNumericPartial is the difference quotient for parameter j, the others at their values. *)
Theorem C89_partials {X} (f : list R -> X -> R) deltaP xs params : deltaP <> [] ->
  exists cols, strictNumericPartial f deltaP (length params) xs params None = Some cols /\ length cols = length params /\
  forall j, (j < length params)%nat -> nth j cols [] =
    map (fun x => let dp := nth (Nat.min j (length deltaP - 1)) deltaP 0 in
                  (f (upd j (nth j params 0 + dp / 2) params) x - f (upd j (nth j params 0 - dp / 2) params) x) / dp) xs.
Proof.
  intro Ne. unfold strictNumericPartial. rewrite seq_length.
  set (todo := combine (seq 0 (length params)) (makeNext deltaP 0 (length params))).
  assert (Lt : length todo = length params) by (unfold todo; rewrite combine_length, seq_length, makeNext_length; lia).
  rewrite partialLoop_spec.
  2:{ intros k dp I. apply in_combine_l, in_seq in I. lia. }
  rewrite map_length, Lt, Nat.leb_refl, Nat.sub_diag. cbn [repeat]. rewrite app_nil_r.
  eexists; split; [reflexivity|]. rewrite map_length. split; [exact Lt|]. intros j Hj.
  set (g := fun kd : nat * R => map (quotient f params (fst kd) (snd kd)) xs).
  rewrite (nth_indep _ [] (g (0%nat, 0))) by (rewrite map_length, Lt; exact Hj). rewrite map_nth. unfold todo.
  rewrite combine_nth by (rewrite seq_length, makeNext_length; reflexivity). rewrite seq_nth by exact Hj.
  rewrite (C89_next deltaP 0 (length params) j Ne Hj). reflexivity.
Qed.
Print Assumptions C89_partials.

(** A quotient is exact for what is quadratic in the parameter, *)
Theorem C89_quadratic a b c x h : h <> 0 ->
  let f := fun t => a + b * t + c * (t * t) in (f (x + h / 2) - f (x - h / 2)) / h = b + 2 * c * x.
Proof. intros H f. unfold f. field. exact H. Qed.
Print Assumptions C89_quadratic.

(** ... and off by at most M dp^2 / 24, when the third derivative to the parameter is at most M. *)
Theorem C89_partial_accuracy {X} (f : list R -> X -> R) deltaP xs params j i lo hi M cols (d : X) :
  (forall dp, In dp deltaP -> 0 < dp) -> deltaP <> [] -> (j < length params)%nat -> (i < length xs)%nat ->
  let dp := nth (Nat.min j (length deltaP - 1)) deltaP 0 in
  let g := fun t => f (upd j t params) (nth i xs d) in
  lo < nth j params 0 - dp / 2 -> nth j params 0 + dp / 2 < hi ->
  (forall t, lo < t < hi -> forall k, (k <= 3)%nat -> ex_derive_n g k t) -> (forall t, lo < t < hi -> Rabs (Derive_n g 3 t) <= M) ->
  strictNumericPartial f deltaP (length params) xs params None = Some cols ->
  Rabs (nth i (nth j cols []) 0 - Derive g (nth j params 0)) <= M * (dp * dp) / 24.
Proof.
  intros Pos Ne Hj Hi dp g Lo Hi' Ex Bd E.
  destruct (C89_partials f deltaP xs params Ne) as (c & E' & _ & C). rewrite E in E'. injection E' as <-.
  rewrite (C j Hj). fold dp. cbn zeta.
  rewrite (nth_indep _ 0 ((fun x => (f (upd j (nth j params 0 + dp / 2) params) x - f (upd j (nth j params 0 - dp / 2) params) x) / dp) d)) by (rewrite map_length; exact Hi).
  rewrite (map_nth (fun x => (f (upd j (nth j params 0 + dp / 2) params) x - f (upd j (nth j params 0 - dp / 2) params) x) / dp)).
  assert (L1 : (1 <= length deltaP)%nat) by (destruct deltaP; [congruence|cbn; lia]).
  assert (P : 0 < dp) by (apply Pos; apply nth_In; lia).
  fold (g (nth j params 0 + dp / 2)). fold (g (nth j params 0 - dp / 2)).
  replace dp with (2 * (dp / 2)) at 3 by field. replace (M * (dp * dp) / 24) with (M * (dp / 2 * (dp / 2)) / 6) by field.
  apply (central g lo hi); [lra|lra|lra|exact Ex|]. intros t Ht. apply Bd. lra.
Qed.
Print Assumptions C89_partial_accuracy.

(** With a parlist the columns are not those of the parameters: column i is that of the i-th of the list, with the step of
    parameter i, and the other columns are 0.  For parlist [1] of two parameters: *)
Theorem C89_parlist_refuted {X} (f : list R -> X -> R) a b d0 d1 x :
  strictNumericPartial f [d0; d1] 2 [x] [a; b] (Some [1%nat]) = Some [[(f [a; b + d0 / 2] x - f [a; b - d0 / 2] x) / d0]; [0]].
Proof.
  unfold strictNumericPartial. cbn [length]. rewrite partialLoop_spec.
  - reflexivity.
  - intros k dp [E|[]]. injection E as <- _. cbn. lia.
Qed.
Print Assumptions C89_parlist_refuted.

(** *** Derivatives to x *)
Theorem C89_derivative f deltaP xs i lo hi M : 0 < hd 0 deltaP -> (i < length xs)%nat ->
  let dx := hd 0 deltaP in let x := nth i xs 0 in
  lo < x - dx -> x + dx < hi -> (forall t, lo < t < hi -> forall k, (k <= 3)%nat -> ex_derive_n f k t) ->
  (forall t, lo < t < hi -> Rabs (Derive_n f 3 t) <= M) ->
  length (strictDerivative1 f deltaP xs) = length xs /\
  Rabs (nth i (strictDerivative1 f deltaP xs) 0 - Derive f x) <= M * (dx * dx) / 6.
Proof.
  intros P Hi dx x Lo Hi' Ex Bd. unfold strictDerivative1. fold dx. split; [apply map_length|].
  rewrite (nth_indep _ 0 ((fun x => (f (x + dx) - f (x - dx)) / (2 * dx)) 0)) by (rewrite map_length; exact Hi).
  rewrite (map_nth (fun x => (f (x + dx) - f (x - dx)) / (2 * dx))). fold x.
  apply (central f lo hi); [exact Lo|exact Hi'|exact P|exact Ex|]. intros t Ht. apply Bd. lra.
Qed.
Print Assumptions C89_derivative.

(** In more dimensions column i is the difference quotient in direction i. *)
Theorem C89_derivatives f deltaP ndim xs i k : (i < ndim)%nat -> (k < length xs)%nat -> (i < length (nth k xs []))%nat ->
  let dx := hd 0 deltaP in let x := nth k xs [] in
  nth k (nth i (strictDerivative f deltaP ndim xs) []) 0 = (f (upd i (nth i x 0 + dx) x) - f (upd i (nth i x 0 - dx) x)) / (2 * dx).
Proof.
  intros Hi Hk Hx dx x. unfold strictDerivative. fold dx.
  set (g := fun i => map _ xs). rewrite (nth_indep _ [] (g 0%nat)) by (rewrite map_length, seq_length; exact Hi).
  rewrite map_nth, seq_nth by exact Hi. cbn [Nat.add]. unfold g.
  set (h := fun x => (_ : R)). rewrite (nth_indep _ 0 (h [])) by (rewrite map_length; exact Hk). rewrite map_nth. unfold h. fold x.
  cbv zeta. rewrite upd_get by exact Hx. rewrite upd_twice. replace (nth i x 0 + dx - 2 * dx) with (nth i x 0 - dx) by lra. reflexivity.
Qed.
Print Assumptions C89_derivatives.

(** *** testPartial *)
Lemma testPartial_value n df partial snum snmp : testPartial n df partial snum snmp =
  (Nat.min n 10 * (deviations (match df with Some d => d | None => snum end) snum + deviations (match partial with Some p => p | None => snmp end) snmp))%nat.
Proof.
  unfold testPartial. set (a := deviations _ snum). set (b := deviations _ snmp).
  enough (G : forall l k, fold_left (fun kerr (_ : nat) => kerr + a + b)%nat l k = (k + length l * (a + b))%nat) by (rewrite G, seq_length; lia).
  induction l as [|x l IH]; intro k; cbn [fold_left length]; [lia|]. rewrite IH. lia.
Qed.
Lemma same_zero l : deviations l l = 0%nat.
Proof.
  unfold deviations. induction l as [|a l IH]; [reflexivity|]. cbn. unfold deviates at 1. cbn [fst snd].
  destruct (Rgt_dec _ _) as [G|_]; [|exact IH]. exfalso. replace (a - a) with 0 in G by ring. rewrite Rabs_R0 in G.
  pose proof (Rmax_r (Rabs (a + a)) 1). lra.
Qed.
(** The test returns 0 when and only when no item deviates by more than 0.001 times max( |a+b|, 1 ). *)
Theorem C89_test n df partial snum snmp : (1 <= n)%nat -> length df = length snum -> length partial = length snmp ->
  (testPartial n (Some df) (Some partial) snum snmp = 0%nat <->
   (forall i, (i < length df)%nat -> Rabs (nth i df 0 - nth i snum 0) <= 0.001 * Rmax (Rabs (nth i df 0 + nth i snum 0)) 1) /\
   (forall i, (i < length partial)%nat -> Rabs (nth i partial 0 - nth i snmp 0) <= 0.001 * Rmax (Rabs (nth i partial 0 + nth i snmp 0)) 1)).
Proof.
  intros N L1 L2. rewrite testPartial_value.
  assert (Z : forall a b, length a = length b -> (deviations a b = 0%nat <-> forall i, (i < length a)%nat -> Rabs (nth i a 0 - nth i b 0) <= 0.001 * Rmax (Rabs (nth i a 0 + nth i b 0)) 1)).
  { clear. unfold deviations. induction a as [|x a IH]; intros [|y b] L; try discriminate; [split; [intros _ i H; cbn in H; lia|reflexivity]|].
    cbn [combine filter fst snd]. unfold deviates at 1. destruct (Rgt_dec _ _) as [G|G].
    - split; [discriminate|]. intro H. specialize (H 0%nat ltac:(cbn; lia)). cbn [nth] in H. lra.
    - rewrite IH by (injection L; auto). split.
      + intros H [|i] Hi; [cbn [nth]; lra|]. apply H. cbn in Hi; lia.
      + intros H i Hi. apply (H (S i)). cbn; lia. }
  rewrite <- (Z df snum L1), <- (Z partial snmp L2). nia.
Qed.
Print Assumptions C89_test.
(** A model that raises in its partials, or has none, gets no deviations for them. *)
Theorem C89_test_none n snum snmp : testPartial n None None snum snmp = 0%nat.
Proof. rewrite testPartial_value, !same_zero. lia. Qed.
Print Assumptions C89_test_none.
(** It is not "the number of large deviations": that number is multiplied by the number of points, up to 10.  One wrong item
    in two points gives 2. *)
Theorem C89_test_number_refuted : exists n df partial snum snmp,
  testPartial n (Some df) (Some partial) snum snmp <> (deviations df snum + deviations partial snmp)%nat.
Proof.
  exists 2%nat, [0; 0], [1; 5], [0; 0], [1; 1]. rewrite testPartial_value, same_zero.
  assert (E : deviations [1; 5] [1; 1] = 1%nat).
  { unfold deviations, deviates. cbn [combine filter fst snd].
    destruct (Rgt_dec _ _) as [G|_]; [exfalso; replace (1 - 1) with 0 in G by ring; rewrite Rabs_R0 in G; pose proof (Rmax_r (Rabs (1 + 1)) 1); lra|].
    destruct (Rgt_dec _ _) as [_|G]; [reflexivity|]. exfalso. apply G. rewrite (Rabs_pos_eq (5 - 1)) by lra. rewrite (Rabs_pos_eq (5 + 1)) by lra.
    rewrite Rmax_left by lra. lra. }
  rewrite E. cbn. lia.
Qed.
Print Assumptions C89_test_number_refuted.

(** *** Partials of the likelihood *)
Theorem C89_logL logL d allpars fitIndex out : numPartialLogL logL d allpars fitIndex = Some out ->
  length out = length fitIndex /\ forall i, (i < length fitIndex)%nat -> exists k, pyidx (length allpars) (nth i fitIndex 0%Z) = Some k /\
    nth i out 0 = (logL (upd k (nth k allpars 0 + d) allpars) - logL (upd k (nth k allpars 0 - d) allpars)) / (2 * d).
Proof.
  unfold numPartialLogL. revert out. induction fitIndex as [|z r IH]; intros out E; cbn [numLoop] in E.
  - injection E as <-. split; [reflexivity|]. intros i H. cbn in H. lia.
  - destruct (pyidx (length allpars) z) as [k|] eqn:K; [|discriminate]. rewrite !upd_twice, upd_id in E.
    destruct (numLoop logL d allpars r allpars) as [l|]; [|discriminate]. injection E as <-. destruct (IH l eq_refl) as [L H].
    split; [cbn; rewrite L; reflexivity|]. intros [|i] Hi; [|apply H; cbn in Hi; lia]. exists k. split; [exact K|]. cbn [nth].
    unfold Rdiv. rewrite Rinv_mult. replace 0.5 with (/ 2) by lra. ring.
Qed.
Print Assumptions C89_logL.
(** An index may count from the end, as for the hyperparameters. *)
Theorem C89_index n k i : pyidx n k = Some i <-> (i < n)%nat /\ (k = Z.of_nat i \/ k = Z.of_nat i - Z.of_nat n)%Z.
Proof.
  unfold pyidx. destruct (Z.ltb_spec k 0).
  - destruct (Z.leb_spec 0 (Z.of_nat n + k)); split; intro H1; try discriminate; try lia.
    + injection H1 as <-. lia.
    + f_equal. lia.
  - destruct (Z.ltb_spec k (Z.of_nat n)); split; intro H1; try discriminate; try lia.
    + injection H1 as <-. lia.
    + f_equal. lia.
Qed.
Print Assumptions C89_index.
(** Its accuracy *)
Theorem C89_logL_accuracy logL d allpars fitIndex out i k lo hi M : 0 < d -> numPartialLogL logL d allpars fitIndex = Some out -> (i < length fitIndex)%nat ->
  pyidx (length allpars) (nth i fitIndex 0%Z) = Some k ->
  let g := fun t => logL (upd k t allpars) in lo < nth k allpars 0 - d -> nth k allpars 0 + d < hi ->
  (forall t, lo < t < hi -> forall j, (j <= 3)%nat -> ex_derive_n g j t) -> (forall t, lo < t < hi -> Rabs (Derive_n g 3 t) <= M) ->
  Rabs (nth i out 0 - Derive g (nth k allpars 0)) <= M * (d * d) / 6.
Proof.
  intros D E Hi K g Lo Hi' Ex Bd. destruct (C89_logL _ _ _ _ _ E) as [_ H]. destruct (H i Hi) as (k' & K' & ->).
  assert (k' = k) by congruence. subst k'. apply (central g lo hi); [exact Lo|exact Hi'|exact D|exact Ex|]. intros t Ht. apply Bd. lra.
Qed.
Print Assumptions C89_logL_accuracy.

(** Partials of priors *)
Theorem C89_prior d2u out logResult d p lo hi M : 0 < d -> lo < p - d -> p + d < hi ->
  (forall f, f = d2u \/ f = logResult -> (forall t, lo < t < hi -> forall j, (j <= 3)%nat -> ex_derive_n f j t) /\ (forall t, lo < t < hi -> Rabs (Derive_n f 3 t) <= M)) ->
  Rabs (numPartialDomain2Unit d2u d p - Derive d2u p) <= M * (d * d) / 6 /\
  match numPartialLog out logResult d p with
  | Some v => out p = false /\ Rabs (v - Derive logResult p) <= M * (d * d) / 6
  | None => out p = true
  end.
Proof.
  intros D Lo Hi F. split.
  - destruct (F d2u (or_introl eq_refl)) as [E B]. apply (central d2u lo hi); [exact Lo|exact Hi|exact D|exact E|]. intros t Ht. apply B. lra.
  - unfold numPartialLog. destruct (out p); [reflexivity|]. split; [reflexivity|].
    destruct (F logResult (or_intror eq_refl)) as [E B]. apply (central logResult lo hi); [exact Lo|exact Hi|exact D|exact E|]. intros t Ht. apply B. lra.
Qed.
Print Assumptions C89_prior.

(** The hypotheses hold for the exponential: its third derivative is itself. *)
Example C89_exp : (forall t k, ex_derive_n exp k t) /\ forall t, -1 < t < 1 -> Rabs (Derive_n exp 3 t) <= exp 1.
Proof.
  assert (D : forall k t, is_derive_n exp k t (exp t)).
  { induction k as [|k IH]; intro t; [reflexivity|]. cbn. apply (is_derive_ext exp); [intro; symmetry; apply is_derive_n_unique, IH|]. apply is_derive_exp. }
  split.
  - intros t [|k]; cbn; [exact I|]. exists (exp t). apply (D (S k)).
  - intros t Ht. rewrite (is_derive_n_unique _ _ _ _ (D 3%nat t)). rewrite Rabs_pos_eq by (left; apply exp_pos). left. apply exp_increasing. lra.
Qed.

(** *** hasLimits *)
(** Without indices: all models with parameters have priors, and all of these have limits. *)
Theorem C89_limits models array : chainHasLimits models array None = Yes <->
  forall np ps, In (np, ps) models -> np = 0%nat \/ exists l, ps = Some l /\ forall b, In b l -> b = true.
Proof.
  induction models as [|[np ps] r IH]; cbn [chainHasLimits]; [split; [intros _ ? ? []|reflexivity]|]. unfold baseHasLimits.
  assert (Tail : (forall np' ps', In (np', ps') ((np, ps) :: r) -> np' = 0%nat \/ exists l, ps' = Some l /\ forall b, In b l -> b = true) <->
    (np = 0%nat \/ exists l, ps = Some l /\ forall b, In b l -> b = true) /\ chainHasLimits r array None = Yes).
  { rewrite IH. split.
    - intro H. split; [apply H; left; reflexivity|]. intros; apply H; right; assumption.
    - intros [A B] n p [E|I]; [injection E as <- <-; exact A|exact (B n p I)]. }
  rewrite Tail. clear Tail IH. destruct (Nat.eqb_spec np 0) as [->|Z].
  - split; [intro H; split; [left; reflexivity|exact H]|intros [_ H]; exact H].
  - destruct ps as [l|]; [|split; [discriminate|intros [[H|(l & H & _)] _]; [lia|discriminate]]].
    destruct (forallb (fun b => b) l) eqn:A.
    + split; [intro H; split; [|exact H]|intros [_ H]; exact H]. right. exists l. split; [reflexivity|]. exact (proj1 (forallb_forall _ _) A).
    + split; [discriminate|]. intros [[H|(l' & H & B)] _]; [lia|]. injection H as <-. rewrite (proj2 (forallb_forall _ _) B) in A. discriminate.
Qed.
Print Assumptions C89_limits.

(** With an array of indices in rising order and a prior for each parameter: all parameters indicated have limits. *)
Definition limitsOf (models : list (nat * option (list bool))) : list bool :=
  concat (map (fun m => match snd m with Some l => l | None => [] end) models).
Inductive rising : Z -> list Z -> Prop :=
  | rise_nil a : rising a []
  | rise_cons a k r : (a <= k)%Z -> rising k r -> rising a (k :: r).

Lemma rising_ge a l : rising a l -> forall k, In k l -> (a <= k)%Z.
Proof. induction 1 as [|a k r H R IH]; intros k' I; [destruct I|]. destruct I as [<-|I]; [exact H|]. specialize (IH k' I). lia. Qed.
Lemma rising_weak a b l : (a <= b)%Z -> rising b l -> rising a l.
Proof. intros L H. inversion H; subst; constructor; [lia|assumption]. Qed.
Lemma rising_shift n a l : (0 <= n)%Z -> rising a l -> rising 0 (map (fun k => k - n)%Z (filter (fun k => (n <=? k)%Z) l)).
Proof.
  intros N H. enough (G : forall c, (c <= a - n \/ c = 0)%Z -> rising c (map (fun k => k - n)%Z (filter (fun k => (n <=? k)%Z) l))) by (apply G; right; reflexivity).
  induction H as [|a k r L R IH]; intros c Hc; [constructor|]. cbn [filter]. destruct (Z.leb_spec n k); cbn [map].
  - constructor; [lia|]. apply IH. left. lia.
  - apply IH. lia.
Qed.
Lemma baseFit_spec ps fit h : rising 0 fit ->
  (baseFit ps fit h = Yes <-> h = true /\ forall k, In k fit -> (k < Z.of_nat (length ps))%Z -> nth (Z.to_nat k) ps false = true) /\ baseFit ps fit h <> Error.
Proof.
  intro H. assert (N := H). revert h. enough (G : forall a, (0 <= a)%Z -> rising a fit -> forall h,
   (baseFit ps fit h = Yes <-> h = true /\ forall k, In k fit -> (k < Z.of_nat (length ps))%Z -> nth (Z.to_nat k) ps false = true) /\ baseFit ps fit h <> Error) by (apply (G 0%Z); [lia|exact H]).
  clear H N. induction fit as [|k r IH]; intros a A R h; cbn [baseFit].
  - destruct h; split; try discriminate; split; try discriminate; try tauto; [intros _; split; [reflexivity|intros ? []]|intros [? _]; discriminate].
  - inversion R as [|a' k' r' L R']; subst. destruct (Z.leb_spec (Z.of_nat (length ps)) k) as [G|G].
    + destruct h; split; try discriminate; split; try discriminate; [|reflexivity|intros [? _]; discriminate].
      intros _. split; [reflexivity|]. intros j [<-|I] J; [lia|]. pose proof (rising_ge _ _ R' j I). lia.
    + destruct h.
      * rewrite (proj2 (C89_index (length ps) k (Z.to_nat k))) by lia. destruct (IH k ltac:(lia) R' (nth (Z.to_nat k) ps false)) as [B C]. split; [|exact C].
        rewrite B. split.
        -- intros [X Y]. split; [reflexivity|]. intros j [<-|I] J; [exact X|exact (Y j I J)].
        -- intros [_ Y]. split; [apply Y; [left; reflexivity|exact G]|]. intros; apply Y; [right|]; assumption.
      * destruct (IH k ltac:(lia) R' false) as [B C]. split; [|exact C]. rewrite B. split; intros [X _]; discriminate.
Qed.
Theorem C89_limits_some models fit : (forall np ps, In (np, ps) models -> np = 0%nat /\ ps = None \/ exists l, ps = Some l /\ length l = np) ->
  rising 0 fit ->
  (chainHasLimits models true (Some fit) = Yes <->
   forall k, In k fit -> (k < Z.of_nat (length (limitsOf models)))%Z -> nth (Z.to_nat k) (limitsOf models) false = true).
Proof.
  revert fit. induction models as [|[np ps] r IH]; intros fit W R; cbn [chainHasLimits].
  - split; [|reflexivity]. intros _ k I H. cbn in H. pose proof (rising_ge _ _ R k I). lia.
  - assert (W' : forall n p, In (n, p) r -> n = 0%nat /\ p = None \/ exists l, p = Some l /\ length l = n) by (intros; apply W; right; assumption).
    set (rest := map (fun k => k - Z.of_nat np)%Z (filter (fun k => (Z.of_nat np <=? k)%Z) fit)).
    assert (Rr : rising 0 rest) by (apply (rising_shift _ 0); [lia|exact R]).
    specialize (IH rest W' Rr).
    assert (Ins : forall j, In j rest <-> exists k, In k fit /\ (Z.of_nat np <= k)%Z /\ j = (k - Z.of_nat np)%Z).
    { intro j. unfold rest. rewrite in_map_iff. split.
      - intros (k & <- & I). apply filter_In in I. exists k. repeat split; [tauto|apply Z.leb_le; tauto].
      - intros (k & I & L & ->). exists k. split; [reflexivity|]. apply filter_In. split; [exact I|apply Z.leb_le; exact L]. }
    destruct (W np ps (or_introl eq_refl)) as [[-> ->]|(l & -> & Ll)].
    + cbn [baseHasLimits Nat.eqb]. change (limitsOf ((0%nat, None) :: r)) with (limitsOf r). rewrite IH. split; intros H k I K.
      * replace k with (k - Z.of_nat 0)%Z by lia. apply H; [apply Ins; exists k|lia]. repeat split; [exact I|]. exact (rising_ge _ _ R k I).
      * apply Ins in I. destruct I as (k' & I & _ & ->). replace (k' - Z.of_nat 0)%Z with k' in * by lia. apply H; assumption.
    + assert (Lim : limitsOf ((np, Some l) :: r) = l ++ limitsOf r) by reflexivity. rewrite Lim, app_length.
      assert (Split : (forall k, In k fit -> (k < Z.of_nat (length l + length (limitsOf r)))%Z -> nth (Z.to_nat k) (l ++ limitsOf r) false = true) <->
        (forall k, In k fit -> (k < Z.of_nat (length l))%Z -> nth (Z.to_nat k) l false = true) /\
        (forall k, In k rest -> (k < Z.of_nat (length (limitsOf r)))%Z -> nth (Z.to_nat k) (limitsOf r) false = true)).
      { split.
        - intro H. split.
          + intros k I K. pose proof (rising_ge _ _ R k I). rewrite <- (H k I ltac:(lia)). symmetry. apply app_nth1. lia.
          + intros j I J. pose proof (rising_ge _ _ Rr j I). apply Ins in I. destruct I as (k & I & L & ->). rewrite <- (H k I ltac:(lia)). rewrite app_nth2 by lia. f_equal. lia.
        - intros [A B] k I K. pose proof (rising_ge _ _ R k I). destruct (Z.ltb_spec k (Z.of_nat np)).
          + rewrite app_nth1 by lia. apply A; [exact I|lia].
          + rewrite app_nth2 by lia. replace (Z.to_nat k - length l)%nat with (Z.to_nat (k - Z.of_nat np)) by lia. apply B; [apply Ins; exists k; repeat split; [exact I|lia]|lia]. }
      rewrite Split. clear Split. rewrite <- IH. unfold baseHasLimits. destruct (Nat.eqb_spec np 0) as [Z|Z].
      * assert (l = []) by (destruct l; [reflexivity|cbn in Ll; lia]). subst l. split; [intro H; split; [|exact H]|intros [_ H]; exact H].
        intros k I K. pose proof (rising_ge _ _ R k I). cbn in K. lia.
      * destruct (baseFit_spec l fit true R) as [B C]. destruct (baseFit l fit true).
        -- destruct (proj1 B eq_refl) as [_ X]. split; [intro H; split; [exact X|exact H]|intros [_ H]; exact H].
        -- split; [discriminate|]. intros [X _]. exfalso. discriminate (proj2 B (conj eq_refl X)).
        -- congruence.
Qed.
Print Assumptions C89_limits_some.
Example C89_limits_case : chainHasLimits [(2%nat, Some [true; false]); (1%nat, Some [true])] true (Some [0%Z; 2%Z]) = Yes /\
  chainHasLimits [(2%nat, Some [true; false]); (1%nat, Some [true])] true (Some [1%Z; 2%Z]) = No /\
  chainHasLimits [(2%nat, Some [true; true]); (1%nat, Some [true])] true None = Yes.
Proof. repeat split. Qed.

(** Indices not in rising order: those after the first one of a next model are not looked at. *)
Theorem C89_limits_order_refuted : exists models fit, chainHasLimits models true (Some fit) = Yes /\ limitsOf models = [false; true] /\ In 0%Z fit.
Proof. exists [(1%nat, Some [false]); (1%nat, Some [true])], [1%Z; 0%Z]. repeat split. right; left; reflexivity. Qed.
Print Assumptions C89_limits_order_refuted.
(** One prior for more parameters: getPrior takes it for all, hasLimits only for the first; and so the parameter has limits,
    when it is asked for, and has none, when all are asked for. *)
Theorem C89_limits_shared_refuted np : (2 <= np)%nat ->
  chainHasLimits [(np, Some [false])] true (Some [1%Z]) = Yes /\ chainHasLimits [(np, Some [false])] true None = No.
Proof. intro H. cbn. unfold baseHasLimits. destruct (Nat.eqb_spec np 0); [lia|]. split; reflexivity. Qed.
Print Assumptions C89_limits_shared_refuted.
(** A list of indices never gets to the answer Yes: it raises. *)
Theorem C89_limits_list_refuted models l : models <> [] -> chainHasLimits models false (Some l) <> Yes.
Proof. destruct models as [|[np ps] r]; [congruence|]. intros _. cbn. destruct (baseHasLimits np ps (Some l)); discriminate. Qed.
Print Assumptions C89_limits_list_refuted.
(** The index -1 of a hyperparameter is looked up among the priors of the parameters. *)
Theorem C89_limits_hyper_refuted np l b : (1 <= np)%nat -> chainHasLimits [(np, Some (l ++ [b]))] true (Some [(-1)%Z]) = if b then Yes else No.
Proof.
  intro H. cbn [chainHasLimits]. unfold baseHasLimits. destruct (Nat.eqb_spec np 0); [lia|]. cbn [baseFit]. rewrite app_length. cbn [length].
  destruct (Z.leb_spec (Z.of_nat (length l + 1)) (-1)); [lia|]. rewrite (proj2 (C89_index (length l + 1) (-1) (length l))) by lia.
  rewrite nth_middle. destruct b; reflexivity.
Qed.
Print Assumptions C89_limits_hyper_refuted.

Ltac items := repeat (match goal with |- _ :: _ = _ :: _ => apply f_equal2 end); try reflexivity; lra.
(** A line p0 + p1 x at two points, its partials are 1 and x; and its likelihood's. *)
Example C89_line : exists c, strictNumericPartial (fun p x => nth 0 p 0 + nth 1 p 0 * x) [2] 2 [2; 3] [1; 1] None = Some c /\ c = [[1; 1]; [2; 3]].
Proof.
  destruct (C89_partials (fun p x => nth 0 p 0 + nth 1 p 0 * x) [2] [2; 3] [1; 1] ltac:(discriminate)) as (c & E & L & C).
  exists c. split; [exact E|]. destruct c as [|a [|b [|? ?]]]; try discriminate L.
  pose proof (C 0%nat ltac:(cbn; lia)) as A. pose proof (C 1%nat ltac:(cbn; lia)) as B. cbn in A, B. rewrite A, B. items.
Qed.
Example C89_logL_case : exists v, numPartialLogL (fun p => - (nth 0 p 0 * nth 0 p 0) - nth 1 p 0) 2 [3; 4] [0%Z; (-1)%Z] = Some v /\ v = [-6; -1].
Proof.
  eexists. unfold numPartialLogL. cbn [numLoop length]. replace (pyidx 2 0) with (Some 0%nat) by reflexivity. replace (pyidx 2 (-1)) with (Some 1%nat) by reflexivity.
  split; [reflexivity|]. cbn. items.
Qed.
Example C89_test_case : testPartial 3 (Some [1; 2]) (Some [5]) [1; 2] [5] = 0%nat.
Proof. rewrite testPartial_value, !same_zero. reflexivity. Qed.
Example C89_square : strictDerivative1 (fun x => x * x) [2] [3] = [6] /\ strictDerivative (fun x => nth 0 x 0 * nth 1 x 0) [2] 2 [[3; 4]] = [[4]; [3]].
Proof. split; cbn; items. Qed.
