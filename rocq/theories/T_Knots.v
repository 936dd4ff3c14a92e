(** C87: averaged knots, knots for interpolation and the collocation matrix. *)
From Coquelicot Require Import Coquelicot.
From Coq Require Import List Arith Reals ZArith Bool Lia Lra.
From Verif Require Import M_BSpline P_BSpline2 T_BSpline M_Knots P_Knots.
Import ListNotations.
Local Open Scope R_scope.

Lemma seq_move i d k : map (fun u => u + d)%nat (seq i k) = seq (i + d) k.
Proof. revert i; induction k as [|k IH]; intro i; [reflexivity|]. cbn [seq map]. rewrite IH. reflexivity. Qed.

(** aveknt gives the averages of all runs of k successive items. *)
Theorem C87_aveknt t k : (1 <= k)%nat -> exists out, aveknt t k = Some out /\ length out = (length t - (k - 1))%nat /\
  forall j, (j < length out)%nat -> nth j out 0 = fold_right Rplus 0 (map (fun i => nth i t 0) (seq j k)) / INR k.
Proof.
  intro K. destruct (aveknt t k) as [out|] eqn:E.
  - destruct (aveknt_nth _ _ _ E) as (_ & L & H). exists out. split; [reflexivity|]. split; [exact L|]. exact H.
  - exfalso. unfold aveknt in E. destruct (Nat.eqb_spec k 0); [lia|discriminate].
Qed.
Print Assumptions C87_aveknt.

(** Every average lies between any bounds of the items it is made of; averages of rising items rise. *)
Theorem C87_aveknt_between t k out j lo hi : aveknt t k = Some out -> (j < length out)%nat ->
  (forall i, (j <= i < j + k)%nat -> lo <= nth i t 0 <= hi) -> lo <= nth j out 0 <= hi.
Proof.
  intros E Hj H. destruct (aveknt_nth _ _ _ E) as (K & L & M). rewrite M by exact Hj. unfold meanOf.
  assert (P : 0 < INR k) by (apply lt_0_INR; lia).
  destruct (sum_bounds lo hi (map (fun i => nth i t 0) (seq j k))) as [A B].
  { intros x I. apply in_map_iff in I. destruct I as (i & <- & I). apply in_seq in I. apply H. lia. }
  rewrite map_length, seq_length in A, B. split.
  - apply (Rmult_le_reg_r (INR k)); [exact P|]. unfold Rdiv. rewrite Rmult_assoc, Rinv_l by lra. lra.
  - apply (Rmult_le_reg_r (INR k)); [exact P|]. unfold Rdiv. rewrite Rmult_assoc, Rinv_l by lra. lra.
Qed.
Print Assumptions C87_aveknt_between.

Theorem C87_aveknt_rises t k out : aveknt t k = Some out -> (forall i j, (i <= j < length t)%nat -> nth i t 0 <= nth j t 0) ->
  forall i j, (i <= j < length out)%nat -> nth i out 0 <= nth j out 0.
Proof.
  intros E Up i j Hij. destruct (aveknt_nth _ _ _ E) as (K & L & M). rewrite !M by lia. unfold meanOf.
  assert (P : 0 < INR k) by (apply lt_0_INR; lia).
  unfold Rdiv. apply Rmult_le_compat_r; [left; apply Rinv_0_lt_compat; exact P|].
  replace (seq j k) with (map (fun u => u + (j - i))%nat (seq i k)).
  2:{ rewrite seq_move. f_equal. lia. }
  rewrite map_map. apply sum_mono. intros u I. apply in_seq in I. apply Up. lia.
Qed.
Print Assumptions C87_aveknt_rises.

Example C87_aveknt_example : aveknt [0; 1; 3; 8] 2 = Some [1 / 2; 2; 11 / 2].
Proof. unfold aveknt. cbn. unfold rsum. cbn. repeat (f_equal; try field). Qed.

(** With k = 0 an exception. *)
Theorem C87_aveknt_zero t : aveknt t 0 = None.
Proof. reflexivity. Qed.
Print Assumptions C87_aveknt_zero.

(** Integers stay integers: aveknt( [0,1], 2 ) is [0], not [0.5]. *)
Theorem C87_integer_refuted : exists t k out, avekntZ t k = Some out /\
  exists j, (j < length out)%nat /\ (Z.of_nat k * nth j out 0 <> fold_right Z.add 0 (map (fun i => nth i t 0) (seq j k)))%Z.
Proof. exists [0; 1]%Z, 2%nat, [0%Z]. split; [reflexivity|]. exists 0%nat. split; [cbn; lia|]. cbn. lia. Qed.
Print Assumptions C87_integer_refuted.

(** ... each is the average without its fraction. *)
Theorem C87_integer t k : (1 <= k)%nat -> exists out, avekntZ t k = Some out /\ length out = (length t - (k - 1))%nat /\
  forall j, (j < length out)%nat ->
    let s := fold_left Z.add (firstn k (skipn j t)) 0%Z in
    (Z.abs (s - Z.of_nat k * nth j out 0%Z) < Z.of_nat k /\ Z.abs (Z.of_nat k * nth j out 0%Z) <= Z.abs s)%Z.
Proof.
  intro K. unfold avekntZ. destruct (Nat.eqb_spec k 0); [lia|]. eexists; split; [reflexivity|].
  rewrite map_length, seq_length. split; [reflexivity|]. intros j Hj. set (s := fold_left Z.add (firstn k (skipn j t)) 0%Z).
  rewrite (nth_indep _ 0%Z ((fun j => Z.quot (fold_left Z.add (firstn k (skipn j t)) 0%Z) (Z.of_nat k)) 0%nat)) by (rewrite map_length, seq_length; exact Hj).
  rewrite (map_nth (fun j => Z.quot (fold_left Z.add (firstn k (skipn j t)) 0%Z) (Z.of_nat k))), seq_nth by exact Hj. cbn [Nat.add]. fold s. clearbody s.
  assert (Kp : (0 < Z.of_nat k)%Z) by lia. set (q := Z.of_nat k) in *. clearbody q.
  split.
  - pose proof (Z.quot_rem' s q). pose proof (Z.rem_bound_abs s q ltac:(lia)). replace (s - q * (s ÷ q))%Z with (Z.rem s q) by lia. lia.
  - rewrite Z.abs_mul. pose proof (Z.quot_abs s q ltac:(lia)) as Q. rewrite <- Q.
    apply Z.mul_quot_le; lia.
Qed.
Print Assumptions C87_integer.

(** Which sites aptknt accepts *)
Theorem C87_accepts tau order : let n := length tau in let k := Nat.min (S order) n in
  (exists kn, aptknt tau order = Some kn) <->
  (2 <= n)%nat /\ (1 <= order)%nat /\ (forall i j, (i <= j < n)%nat -> nth i tau 0 <= nth j tau 0) /\
  (forall i, (i < n - k)%nat -> nth (i + k - 1) tau 0 <> nth i tau 0).
Proof.
  intros n k. pose proof (rises_spec tau) as RS. fold n in RS. rewrite <- RS. clear RS. split.
  - intros [kn E]. pose proof (aptknt_nth _ _ _ E) as H. cbn zeta in H. fold n in H. fold k in H. destruct H as (K & Ri & _).
    split; [subst k; lia|]. split; [subst k; lia|]. split; [exact Ri|]. intros i Hi Eq.
    unfold aptknt in E. fold n in E. fold k in E. rewrite Ri in E. cbn [negb] in E.
    destruct (existsb _ _) eqn:Ex in E; [discriminate|].
    enough (existsb (fun i => if Req_EM_T (nth (i + k - 1) tau 0) (nth i tau 0) then true else false) (seq 0 (n - k)) = true) by congruence.
    apply existsb_exists. exists i. split; [apply in_seq; lia|]. destruct (Req_EM_T _ _); [reflexivity|contradiction].
  - intros (N & O & Ri & Ne). unfold aptknt. fold n. fold k. rewrite Ri. cbn [negb].
    destruct (existsb _ _) eqn:Ex.
    + exfalso. apply existsb_exists in Ex. destruct Ex as (i & I & E). apply in_seq in I.
      destruct (Req_EM_T _ _) as [E'|] in E; [|discriminate]. apply (Ne i); [lia|exact E'].
    + destruct tau as [|t0 r]; [cbn in N; lia|]. assert (K : (2 <= k)%nat) by (subst k; lia). clearbody k.
      destruct k as [|[|k']]; [lia|lia|]. unfold aveknt. cbn [Nat.eqb]. eexists. reflexivity.
Qed.
Print Assumptions C87_accepts.

(** What it gives for them: k times the first site, averages of k - 1 inner sites, k times the last site. *)
Theorem C87_aptknt tau order kn : aptknt tau order = Some kn ->
  let n := length tau in let k := Nat.min (S order) n in
  length kn = (n + k)%nat /\
  (forall i, (i < k)%nat -> nth i kn 0 = nth 0 tau 0) /\
  (forall i, (k <= i < n)%nat -> nth i kn 0 = fold_right Rplus 0 (map (fun j => nth j tau 0) (seq (i - k + 1) (k - 1))) / INR (k - 1)) /\
  (forall i, (n <= i < n + k)%nat -> nth i kn 0 = nth (n - 1) tau 0).
Proof. intros E n k. pose proof (aptknt_nth _ _ _ E) as H. cbn zeta in H. tauto. Qed.
Print Assumptions C87_aptknt.

Lemma mean_between f a m lo hi : (1 <= m)%nat -> (forall i, (a <= i < a + m)%nat -> lo <= f i <= hi) -> lo <= meanOf f a m <= hi.
Proof.
  intros M H. unfold meanOf. assert (P : 0 < INR m) by (apply lt_0_INR; lia).
  destruct (sum_bounds lo hi (map f (seq a m))) as [A B].
  { intros x I. apply in_map_iff in I. destruct I as (i & <- & I). apply in_seq in I. apply H. lia. }
  rewrite map_length, seq_length in A, B.
  split; apply (Rmult_le_reg_r (INR m)); try exact P; unfold Rdiv; rewrite Rmult_assoc, Rinv_l by lra; lra.
Qed.
Lemma mean_above f a m lo : (1 <= m)%nat -> (forall i, (a <= i < a + m)%nat -> lo < f i) -> lo < meanOf f a m.
Proof.
  intros M H. unfold meanOf. assert (P : 0 < INR m) by (apply lt_0_INR; lia).
  pose proof (sum_low lo (map f (seq a m))) as A. rewrite map_length, seq_length in A.
  apply (Rmult_lt_reg_r (INR m)); [exact P|]. unfold Rdiv. rewrite Rmult_assoc, Rinv_l by lra. rewrite Rmult_1_r. apply A.
  - destruct m; [lia|discriminate].
  - intros x I. apply in_map_iff in I. destruct I as (i & <- & I). apply in_seq in I. apply H. lia.
Qed.
Lemma mean_below f a m hi : (1 <= m)%nat -> (forall i, (a <= i < a + m)%nat -> f i < hi) -> meanOf f a m < hi.
Proof.
  intros M H. unfold meanOf. assert (P : 0 < INR m) by (apply lt_0_INR; lia).
  pose proof (sum_high hi (map f (seq a m))) as A. rewrite map_length, seq_length in A.
  apply (Rmult_lt_reg_r (INR m)); [exact P|]. unfold Rdiv. rewrite Rmult_assoc, Rinv_l by lra. rewrite Rmult_1_r. apply A.
  - destruct m; [lia|discriminate].
  - intros x I. apply in_map_iff in I. destruct I as (i & <- & I). apply in_seq in I. apply H. lia.
Qed.
Lemma mean_mono f a b m : (1 <= m)%nat -> (a <= b)%nat -> (forall i j, (a <= i <= j)%nat -> (j < b + m)%nat -> f i <= f j) -> meanOf f a m <= meanOf f b m.
Proof.
  intros M AB H. unfold meanOf. assert (P : 0 < INR m) by (apply lt_0_INR; lia).
  unfold Rdiv. apply Rmult_le_compat_r; [left; apply Rinv_0_lt_compat; exact P|].
  replace (seq b m) with (map (fun u => u + (b - a))%nat (seq a m)).
  2:{ rewrite seq_move. f_equal. lia. }
  rewrite map_map. apply sum_mono. intros u I. apply in_seq in I. apply H; lia.
Qed.

(** The knots never decrease and stay between the first and the last site. *)
Theorem C87_knots_rise tau order kn : aptknt tau order = Some kn ->
  (forall i j, (i <= j < length kn)%nat -> nth i kn 0 <= nth j kn 0) /\
  (forall x, In x kn -> nth 0 tau 0 <= x <= nth (length tau - 1) tau 0).
Proof.
  intro E. pose proof (aptknt_nth _ _ _ E) as H. cbn zeta in H. set (n := length tau) in *. set (k := Nat.min (S order) n) in *.
  destruct H as (K & Ri & L & H1 & H2 & H3). pose proof (proj1 (rises_spec tau) Ri) as Ri2. clear Ri. rename Ri2 into Ri. fold n in Ri.
  assert (Kn : (k <= n)%nat) by (subst k; lia). clearbody k.
  assert (B : forall i, (i < length kn)%nat -> nth 0 tau 0 <= nth i kn 0 <= nth (n - 1) tau 0).
  { intros i Hi. destruct (le_lt_dec k i) as [Ki|Ki].
    - destruct (le_lt_dec n i) as [Ni|Ni].
      + rewrite H3 by lia. split; [apply Ri; lia|lra].
      + rewrite H2 by lia. apply mean_between; [lia|]. intros u Hu. split; apply Ri; lia.
    - rewrite H1 by lia. split; [lra|apply Ri; lia]. }
  split.
  - intros i j Hij. destruct (le_lt_dec k i) as [Ki|Ki].
    + destruct (le_lt_dec n j) as [Nj|Nj].
      * rewrite (H3 j) by lia. apply B. lia.
      * rewrite !H2 by lia. apply mean_mono; [lia|lia|]. intros u v Hu Hv. apply Ri. lia.
    + rewrite (H1 i) by lia. apply B. lia.
  - intros x I. destruct (In_nth _ _ 0 I) as (i & Hi & <-). apply B. exact Hi.
Qed.
Print Assumptions C87_knots_rise.

(** For different sites the knots are suitable for interpolation (the condition of Schoenberg and Whitney): every site lies in the
    support of its own spline: inside, except that the first and the last site are at its edge. *)
Theorem C87_suitable tau order : (1 <= order)%nat -> (S order <= length tau)%nat -> rising tau ->
  exists kn, aptknt tau order = Some kn /\ length kn = (length tau + S order)%nat /\
  (forall i, (i < length tau)%nat -> nth i kn 0 <= nth i tau 0 <= nth (i + S order) kn 0) /\
  (forall i, (1 <= i < length tau)%nat -> nth i kn 0 < nth i tau 0) /\
  (forall i, (i < length tau - 1)%nat -> nth i tau 0 < nth (i + S order) kn 0).
Proof.
  intros O N Up.
  assert (Ri : forall i j, (i <= j < length tau)%nat -> nth i tau 0 <= nth j tau 0).
  { intros i j H. destruct (Nat.eq_dec i j) as [->|]; [lra|]. left. apply Up. lia. }
  destruct (proj2 (C87_accepts tau order)) as [kn E].
  { split; [lia|]. split; [exact O|]. split; [exact Ri|]. intros i Hi. apply Rgt_not_eq. apply Up. lia. }
  exists kn. split; [exact E|]. pose proof (aptknt_nth _ _ _ E) as H. cbn zeta in H.
  replace (Nat.min (S order) (length tau)) with (S order) in H by lia.
  set (n := length tau) in *. destruct H as (_ & _ & L & H1 & H2 & H3). split; [exact L|].
  assert (A : forall i, (1 <= i < n)%nat -> nth i kn 0 < nth i tau 0).
  { intros i Hi. destruct (le_lt_dec (S order) i) as [Ki|Ki].
    - rewrite H2 by lia. apply mean_below; [lia|]. intros u Hu. apply Up. fold n; lia.
    - rewrite H1 by lia. apply Up. fold n; lia. }
  assert (B : forall i, (i < n - 1)%nat -> nth i tau 0 < nth (i + S order) kn 0).
  { intros i Hi. destruct (le_lt_dec n (i + S order)) as [Ni|Ni].
    - rewrite H3 by lia. apply Up. fold n; lia.
    - rewrite H2 by lia. apply mean_above; [lia|]. intros u Hu. apply Up. fold n; lia. }
  split; [|split; [exact A|exact B]].
  intros i Hi. split.
  - destruct i as [|i]; [rewrite H1 by lia; lra|]. left. apply A. lia.
  - destruct (Nat.eq_dec i (n - 1)) as [->|]; [rewrite H3 by lia; lra|]. left. apply B. lia.
Qed.
Print Assumptions C87_suitable.

(** Order 0 raises for every list of sites, although "int, >= 0" is documented. *)
Theorem C87_order_zero_refuted tau : aptknt tau 0 = None.
Proof.
  destruct (aptknt tau 0) as [kn|] eqn:E; [|reflexivity]. exfalso.
  assert (X : exists kn, aptknt tau 0 = Some kn) by (exists kn; exact E). apply C87_accepts in X. destruct X as (_ & O & _). lia.
Qed.
Print Assumptions C87_order_zero_refuted.

(** Sites that are repeated k times at the end are not detected: the loop stops one too early.
    aptknt( [0,1,1], 1 ) is accepted; at the start, [0,0,1], it raises. *)
Theorem C87_repeated_refuted : (exists kn, aptknt [0; 1; 1] 1 = Some kn) /\ aptknt [0; 0; 1] 1 = None.
Proof.
  split.
  - apply C87_accepts. cbn. split; [lia|]. split; [lia|]. split.
    + intros i j H. assert (C : (i = 0 \/ i = 1 \/ i = 2)%nat) by lia. assert (D : (j = 0 \/ j = 1 \/ j = 2)%nat) by lia.
      destruct C as [->|[->| ->]]; destruct D as [->|[->| ->]]; try lia; cbn; lra.
    + intros i H. assert (i = 0)%nat by lia. subst. cbn. lra.
  - destruct (aptknt [0; 0; 1] 1) as [kn|] eqn:E; [|reflexivity]. exfalso.
    assert (X : exists kn, aptknt [0; 0; 1] 1 = Some kn) by (exists kn; exact E). apply C87_accepts in X. cbn in X.
    destruct X as (_ & _ & _ & Ne). apply (Ne 0%nat); [lia|reflexivity].
Qed.
Print Assumptions C87_repeated_refuted.

(** ... it is detected everywhere else. *)
Theorem C87_repeated tau order i : (1 <= order)%nat -> (i + S order < length tau)%nat -> nth (i + order) tau 0 = nth i tau 0 -> aptknt tau order = None.
Proof.
  intros O N E. destruct (aptknt tau order) as [kn|] eqn:A; [|reflexivity]. exfalso.
  assert (X : exists kn, aptknt tau order = Some kn) by (exists kn; exact A). apply C87_accepts in X.
  destruct X as (_ & _ & _ & Ne). replace (Nat.min (S order) (length tau)) with (S order) in Ne by lia.
  apply (Ne i); [lia|]. replace (i + S order - 1)%nat with (i + order)%nat by lia. exact E.
Qed.
Print Assumptions C87_repeated.

(** knt2mlt counts the items before that are equal. *)
Theorem C87_mlt t : (forall i j, (i <= j < length t)%nat -> nth i t 0 <= nth j t 0) ->
  length (knt2mlt t) = length t /\
  forall i, (i < length t)%nat -> nth i (knt2mlt t) 0%nat = length (filter (fun y => if Req_EM_T (nth i t 0) y then true else false) (firstn i t)).
Proof.
  intro Up. split; [apply mlt_length|]. intros i Hi. apply knt2mlt_nth; [apply rises_spec; exact Up|exact Hi].
Qed.
Print Assumptions C87_mlt.

Example C87_mlt_example : knt2mlt [1; 1; 2; 3; 3; 3] = [0; 1; 0; 0; 1; 2]%nat.
Proof. unfold knt2mlt. cbn. repeat (match goal with |- context [Req_EM_T ?a ?b] => destruct (Req_EM_T a b); try lra end; cbn). reflexivity. Qed.

(** It needs the items sorted, as its description says. *)
Example C87_mlt_unsorted : knt2mlt [1; 2; 1] = [0; 0; 0]%nat.
Proof. unfold knt2mlt. cbn. repeat (match goal with |- context [Req_EM_T ?a ?b] => destruct (Req_EM_T a b); try lra end; cbn). reflexivity. Qed.

(** The collocation matrix: row i is the derivative B.diff( m )( tau[i] ), with m the number of equal sites before. *)
Theorem C87_spcol knots order tau : (forall i j, (i <= j < length tau)%nat -> nth i tau 0 <= nth j tau 0) ->
  length (spcol knots order tau) = length tau /\
  forall i, (i < length tau)%nat -> nth i (spcol knots order tau) [] =
    diff (length (filter (fun y => if Req_EM_T (nth i tau 0) y then true else false) (firstn i tau))) (Bspline knots order false) (nth i tau 0).
Proof.
  intro Up. destruct (C87_mlt tau Up) as [L M]. unfold spcol.
  assert (Lc : length (combine tau (knt2mlt tau)) = length tau) by (rewrite combine_length, L; lia).
  split; [rewrite map_length; exact Lc|]. intros i Hi.
  set (g := fun tm : R * nat => diff (snd tm) (Bspline knots order false) (fst tm)).
  rewrite (nth_indep _ [] (g (0, 0%nat))) by (rewrite map_length, Lc; exact Hi).
  rewrite map_nth, combine_nth by (symmetry; exact L). unfold g. cbn [fst snd]. rewrite M by exact Hi. reflexivity.
Qed.
Print Assumptions C87_spcol.

(** The spline with and without its special treatment of the last knot *)
Lemma call_last_length t o b1 b2 x : (o < length t)%nat -> length (call (Bspline t o b1) x) = length (call (Bspline t o b2) x).
Proof.
  intro H. assert (W : forall b, wf (Bspline t o b)).
  { intros [|]; unfold wf, Bspline; cbn [lastkn kv]; [|exact I]. unfold lastKnot. rewrite map_length, seq_length. reflexivity. }
  rewrite !call_length by (try apply W; exact H). reflexivity.
Qed.
Lemma diff_terms_last t o b1 b2 m : (o < length t)%nat -> diff_terms (S m) (Bspline t o b1) = diff_terms (S m) (Bspline t o b2).
Proof.
  intro H. induction m as [|m IH].
  - cbn [diff_terms flat_map app]. unfold ones. rewrite (call_last_length t o b1 b2) by exact H. reflexivity.
  - change (diff_terms (S (S m)) (Bspline t o b1)) with (flat_map (fun cb => map (fun cn => (zip Rmult (fst cb) (fst cn), snd cn)) (diff_internal (snd cb))) (diff_terms (S m) (Bspline t o b1))).
    rewrite IH. reflexivity.
Qed.
Lemma upper_last t o x : nth 0 t 0 <= x -> x <> nth (length t - o - 1) t 0 -> upper (Bspline t o true) x = upper (Bspline t o false) x.
Proof.
  intros X N. unfold upper, Bspline. cbn [lastkn kv].
  assert (Z : forall (u : list bool) (l : list R), length l = length u -> (forall y, In y l -> x <> y) -> zip orb u (map (fun k => if Req_EM_T x k then true else false) l) = u).
  { induction u as [|a u IH]; intros l L Hl; [reflexivity|]. destruct l as [|y l]; [discriminate|]. unfold zip in *. cbn.
    destruct (Req_EM_T x y) as [E|_]; [exfalso; exact (Hl y (or_introl eq_refl) E)|]. rewrite Bool.orb_false_r. f_equal. apply IH; [injection L; auto|]. intros; apply Hl; right; assumption. }
  apply Z.
  - unfold from, lastKnot. rewrite map_length, !skipn_length, map_length, seq_length. reflexivity.
  - intros y I. apply In_skipn in I. unfold lastKnot in I. apply in_map_iff in I. destruct I as (i & <- & _).
    destruct (Nat.eqb_spec i (length t - o - 1)) as [->|]; [exact N|]. lra.
Qed.
Lemma basis_last t o x p : nth 0 t 0 <= x -> x <> nth (length t - o - 1) t 0 -> basis (Bspline t o true) x p = basis (Bspline t o false) x p.
Proof.
  intros X N. induction p as [|p IH].
  - cbn [basis]. unfold basis0. rewrite (upper_last t o x X N). reflexivity.
  - cbn [basis]. rewrite IH. reflexivity.
Qed.
Lemma diff_last t o x m : (o < length t)%nat -> nth 0 t 0 <= x -> x <> nth (length t - o - 1) t 0 -> diff m (Bspline t o true) x = diff m (Bspline t o false) x.
Proof.
  intros L X N. unfold diff. rewrite (call_last_length t o true false) by exact L. cbn [deg Bspline].
  destruct (Nat.eqb_spec m 0) as [->|M]; [unfold call; cbn [deg Bspline]; apply basis_last; assumption|].
  destruct m as [|m]; [lia|]. rewrite (diff_terms_last t o true false) by exact L. reflexivity.
Qed.

Lemma near_free (l : list R) x : ~ In x l -> locally x (fun y => ~ In y l).
Proof.
  induction l as [|a l IH]; intro N; [apply filter_forall; intros y []|].
  assert (A : locally x (fun y => y <> a)).
  { apply (open_neq a). intro E. apply N. left. symmetry. exact E. }
  generalize (filter_and _ _ A (IH (fun H => N (or_intror H)))). apply filter_imp. intros y [Ya Yl] [E|I]; [congruence|contradiction].
Qed.

Lemma nth0_augknt knots order : (1 <= length knots)%nat -> nth 0 (augknt knots order) 0 = hd 0 knots.
Proof. intro H. destruct knots as [|a r]; [cbn in H; lia|]. unfold augknt. destruct order; reflexivity. Qed.
Lemma augknt_length knots order : length (augknt knots order) = (length knots + 2 * order)%nat.
Proof. unfold augknt. rewrite !app_length, !repeat_length. lia. Qed.
Lemma nth_augknt_last knots order : (1 <= length knots)%nat -> nth (length (augknt knots order) - order - 1) (augknt knots order) 0 = last knots 0.
Proof.
  intro H. rewrite augknt_length. unfold augknt. rewrite app_nth2, repeat_length by (rewrite repeat_length; lia).
  rewrite app_nth1 by lia. rewrite last_nth. f_equal. lia.
Qed.

(** For rising knots with their ends repeated, the items of the matrix are the derivatives of the splines, of the order of the
    multiplicity of the site: for a site inside, when it is not a knot or the multiplicity is below the order. *)
Theorem C87_derivatives knots order tau i j : (2 <= length knots)%nat -> rising knots ->
  (forall i j, (i <= j < length tau)%nat -> nth i tau 0 <= nth j tau 0) -> (i < length tau)%nat -> (j < order + length knots - 1)%nat ->
  let t := augknt knots order in
  let m := length (filter (fun y => if Req_EM_T (nth i tau 0) y then true else false) (firstn i tau)) in
  hd 0 knots < nth i tau 0 < last knots 0 -> ~ In (nth i tau 0) knots \/ (m < order)%nat ->
  is_derive_n (fun y => nth j (call (Bspline t order false) y) 0) m (nth i tau 0) (nth j (nth i (spcol t order tau) []) 0).
Proof.
  intros Two Up Ut Hi Hj t m X Sm. rewrite (proj2 (C87_spcol t order tau Ut) i Hi). fold m. clearbody m. generalize dependent (nth i tau 0).
  assert (Lt : (order < length t)%nat) by (unfold t; rewrite augknt_length; lia).
  assert (In1 : forall y, hd 0 knots < y < last knots 0 -> forall q, diff q (Bspline t order false) y = diff q (bsp knots order) y).
  { intros y Y q. unfold bsp. symmetry. apply diff_last; [exact Lt| |].
    - unfold t. rewrite nth0_augknt by lia. lra.
    - unfold t. rewrite nth_augknt_last by lia. lra. }
  assert (Nb : forall y, hd 0 knots < y < last knots 0 -> locally y (fun z => hd 0 knots < z < last knots 0)).
  { intros y [Y1 Y2]. apply filter_and; [exact (open_gt _ y Y1)|exact (open_lt _ y Y2)]. }
  induction m as [|m IH]; intros x X Sm.
  - cbn [is_derive_n]. reflexivity.
  - cbn [is_derive_n]. rewrite (In1 x X).
    apply (is_derive_ext_loc (fun y : R => nth j (diff m (bsp knots order) y) 0)).
    + assert (Sn : locally x (fun z => ~ In z knots \/ (m < order)%nat)).
      { destruct Sm as [N|M]; [|apply filter_forall; intros; right; lia]. generalize (near_free knots x N). apply filter_imp. intros; left; assumption. }
      generalize (filter_and _ _ (Nb x X) Sn). apply filter_imp. intros y [Y Sy]. symmetry.
      rewrite <- (In1 y Y). apply is_derive_n_unique. apply IH; assumption.
    + apply diff_derive; [exact Two|exact Up|exact X| |exact Hj]. destruct Sm; [left; assumption|right; lia].
Qed.
Print Assumptions C87_derivatives.

(** aptknt promises knots for interpolation at the sites.  spcol does not treat the last knot: all splines are 0 there, so
    the last row of the matrix of any (different) sites with their own knots is zero: the matrix is singular. *)
Theorem C87_last_row_refuted tau order : (1 <= order)%nat -> (S order <= length tau)%nat -> rising tau ->
  exists kn, aptknt tau order = Some kn /\ length (spcol kn order tau) = length tau /\
    last (spcol kn order tau) [] = repeat 0 (length tau).
Proof.
  intros O N Up.
  assert (Ri : forall i j, (i <= j < length tau)%nat -> nth i tau 0 <= nth j tau 0).
  { intros i j H. destruct (Nat.eq_dec i j) as [->|]; [lra|]. left. apply Up. lia. }
  destruct (C87_suitable tau order O N Up) as (kn & E & L & _). exists kn. split; [exact E|].
  destruct (C87_spcol kn order tau Ri) as [Ls Row]. split; [exact Ls|].
  set (n := length tau) in *.
  assert (La : forall (l : list (list R)), last l [] = nth (length l - 1) l []).
  { induction l as [|a [|b l] IH]; [reflexivity|reflexivity|]. change (last (a :: b :: l) []) with (last (b :: l) []). rewrite IH.
    cbn [length]. replace (S (S (length l)) - 1)%nat with (S (S (length l) - 1)) by lia. reflexivity. }
  rewrite La, Ls, Row by lia.
  assert (M : filter (fun y => if Req_EM_T (nth (n - 1) tau 0) y then true else false) (firstn (n - 1) tau) = []).
  { assert (F : forall y, In y (firstn (n - 1) tau) -> nth (n - 1) tau 0 <> y).
    { intros y I. destruct (In_nth _ _ 0 I) as (u & Hu & <-). rewrite firstn_length in Hu. fold n in Hu.
      rewrite <- (firstn_skipn (n - 1) tau) at 1. apply Rgt_not_eq.
      assert (Q : nth u (firstn (n - 1) tau) 0 = nth u tau 0).
      { rewrite <- (firstn_skipn (n - 1) tau) at 2. rewrite app_nth1; [reflexivity|]. rewrite firstn_length. fold n. lia. }
      rewrite Q, firstn_skipn. apply Up. fold n. lia. }
    revert F. generalize (firstn (n - 1) tau). induction l as [|y l IHl]; intro F; [reflexivity|]. cbn.
    destruct (Req_EM_T (nth (n - 1) tau 0) y) as [Q|_]; [exfalso; exact (F y (or_introl eq_refl) Q)|]. apply IHl. intros; apply F; right; assumption. }
  rewrite M. cbn [length]. unfold diff. cbn [Nat.eqb]. unfold call. cbn [deg Bspline].
  pose proof (basis_zero kn order (nth (n - 1) tau 0) order) as Z.
  assert (Kz : forall k, In k kn -> k <= nth (n - 1) tau 0) by (intros k I; apply (proj2 (C87_knots_rise tau order kn E) k I)).
  specialize (Z Kz).
  assert (Lb : length (basis (Bspline kn order false) (nth (n - 1) tau 0) order) = n).
  { rewrite basis_length; [|exact I|]; cbn [kv Bspline]; rewrite L; lia. }
  rewrite <- Lb at 2. clear - Z. induction Z as [|z l Hz Hl IH]; [reflexivity|]. cbn [length repeat]. rewrite Hz, <- IH. reflexivity.
Qed.
Print Assumptions C87_last_row_refuted.

Example C87_sites : rising [0; 1; 3; 8] /\ (S 2 <= length [0; 1; 3; 8])%nat /\ aptknt [0; 1; 3; 8] 2 = Some [0; 0; 0; 2; 8; 8; 8].
Proof.
  assert (Up : rising [0; 1; 3; 8]).
  { intros i j H. cbn [length] in H. assert (C : (i = 0 \/ i = 1 \/ i = 2)%nat) by lia. assert (D : (j = 1 \/ j = 2 \/ j = 3)%nat) by lia.
    destruct C as [->|[->| ->]]; destruct D as [->|[->| ->]]; try lia; cbn; lra. }
  split; [exact Up|]. split; [cbn; lia|].
  destruct (C87_suitable [0; 1; 3; 8] 2 ltac:(lia) ltac:(cbn; lia) Up) as (kn & E & L & _).
  pose proof (C87_aptknt _ _ _ E) as (_ & A & B & C). cbn [length Nat.min] in *. rewrite E. f_equal.
  destruct kn as [|k0 [|k1 [|k2 [|k3 [|k4 [|k5 [|k6 [|? ?]]]]]]]]; try (cbn in L; discriminate).
  pose proof (A 0%nat ltac:(lia)). pose proof (A 1%nat ltac:(lia)). pose proof (A 2%nat ltac:(lia)). pose proof (B 3%nat ltac:(lia)).
  pose proof (C 4%nat ltac:(lia)). pose proof (C 5%nat ltac:(lia)). pose proof (C 6%nat ltac:(lia)). cbn in *. repeat f_equal; lra.
Qed.
