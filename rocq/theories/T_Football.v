(** Theorems C77: results of football matches. *)
From Coquelicot Require Import Coquelicot.
From Coq Require Import Reals List Arith Bool Lia Lra.
From Verif Require Import M_Errdis M_Football.
Import ListNotations.
Local Open Scope R_scope.

(** ** Derivative of one strength *)
Lemma strength (a b m q : R -> R) (x da db dm dq : R) : is_derive a x da -> is_derive b x db -> is_derive m x dm -> is_derive q x dq -> 0 < m x -> 0 < b x ->
  is_derive (fun t => a t * sqrt (m t) * (1 - npow (b t) (q t))) x
    (da * sqrt (m x) * (1 - Rpower (b x) (q x)) + a x * (dm / (2 * sqrt (m x))) * (1 - Rpower (b x) (q x)) - a x * sqrt (m x) * (Rpower (b x) (q x) * (dq * ln (b x) + q x * (db / b x)))).
Proof.
  intros A B M Q Pm Pb.
  apply (is_derive_ext_loc (fun t => a t * sqrt (m t) * (1 - exp (q t * ln (b t))))).
  { assert (C : continuous b x) by (apply (ex_derive_continuous (V := R_NormedModule)); now exists db).
    assert (E : locally x (fun t => 0 < b t)). { apply (C (fun y => 0 < y)). exists (mkposreal _ Pb). intros y Hy. unfold ball in Hy. cbn in Hy. unfold AbsRing_ball, abs, minus, plus, opp in Hy. cbn in Hy. apply Rabs_def2 in Hy. lra. }
    revert E. apply filter_imp. intros t H. unfold npow. destruct (Req_EM_T (b t) 0); [lra|]. reflexivity. }
  assert (S : 0 < sqrt (m x)) by (now apply sqrt_lt_R0).
  auto_derive.
  - repeat split; try (eexists; eassumption); assumption.
  - replace (Derive (fun x : R => a x) x) with da by (symmetry; apply is_derive_unique; exact A).
    replace (Derive (fun x : R => b x) x) with db by (symmetry; apply is_derive_unique; exact B).
    replace (Derive (fun x : R => m x) x) with dm by (symmetry; apply is_derive_unique; exact M).
    replace (Derive (fun x : R => q x) x) with dq by (symmetry; apply is_derive_unique; exact Q).
    unfold Rpower. match goal with |- ?a = ?b => change (@eq R a b) end. field. lra.
Qed.

(** one parameter replaced *)
Definition upd (par : nat -> R) (j : nat) (t : R) : nat -> R := fun i => if (i =? j)%nat then t else par i.
Definition del (i j : nat) : R := if (i =? j)%nat then 1 else 0.
Lemma upd_der par i j : is_derive (fun t => upd par j t i) (par j) (del i j).
Proof. unfold upd, del. destruct (Nat.eqb_spec i j); [subst|]; auto_derive; trivial. Qed.
Lemma upd_at par j i : upd par j (par j) i = par i.
Proof. unfold upd. destruct (Nat.eqb_spec i j); now subst. Qed.

(** ** Results *)
(** the parameters of a team; those that are not in the model have their default *)
Record team := mkT { ta : R; tb : R; tc : R; td : R; tf : R }.
Definition teamOf (complexity : nat) (par : nat -> R) (t : nat) : team :=
  let g i d := if (i <? complexity)%nat then par (t * complexity + i)%nat else d in mkT (g 0%nat 0) (g 1%nat 0) (g 2%nat 1) (g 3%nat 1) (g 4%nat 1).
(** b ^ q *)
Definition power (b q : R) : R := if Rlt_dec 0 b then exp (q * ln b) else 0.
(** the formulas in the documentation; with strategy f *)
Definition strengths (h w : team) : R * R :=
  (ta h * sqrt (tc h * td h * tf h / tc w) * (1 - power (tb w) (tc h * td h * tf w / tc w)),
   ta w * sqrt (tc w * tf w / (tc h * td h)) * (1 - power (tb h) (tc w * tf h / (tc h * td h)))).
(** the limits of the parameters *)
Definition within (t : team) : Prop := 0 <= tb t /\ 0 < tc t /\ 0 < td t /\ 0 < tf t.

Lemma npow_power b q : 0 <= b -> npow b q = power b q.
Proof. intro H. unfold npow, power. destruct (Req_EM_T b 0), (Rlt_dec 0 b); try lra; reflexivity. Qed.
Lemma power_1 b : 0 <= b -> power b 1 = b.
Proof. intro H. unfold power. destruct (Rlt_dec 0 b); [rewrite Rmult_1_l; now apply exp_ln|lra]. Qed.

Lemma str_eq a b m q m' q' : m = m' -> q = q' -> a * sqrt m * (1 - power b q) = a * sqrt m' * (1 - power b q').
Proof. now intros -> ->. Qed.

(** For every complexity the results are those of the formulas in which the parameters that are not there have their default values:
    a more complex model with defaults has the same result. *)
Theorem C77_result c g par t0 t1 : goals c = Some g -> within (teamOf c par t0) -> within (teamOf c par t1) ->
  g par t0 t1 = strengths (teamOf c par t0) (teamOf c par t1).
Proof.
  intros G W0 W1. destruct W0 as (B0 & C0 & D0 & F0), W1 as (B1 & C1 & D1 & F1). unfold strengths.
  destruct c as [|[|[|[|[|[|c]]]]]]; try discriminate G; injection G as <-; cbn [teamOf Nat.ltb Nat.leb ta tb tc td tf] in *; rewrite ?Nat.add_0_r, ?Nat.mul_1_r in *.
  - unfold goals1. replace (1 * 1 * 1 / 1) with 1 by field. replace (1 * 1 / (1 * 1)) with 1 by field. rewrite sqrt_1, power_1 by lra. f_equal; ring.
  - unfold goals2. replace (1 * 1 * 1 / 1) with 1 by field. replace (1 * 1 / (1 * 1)) with 1 by field. rewrite sqrt_1, !power_1 by assumption. cbv zeta. f_equal; ring.
  - unfold goals3. cbv zeta. rewrite !npow_power by assumption. f_equal; apply str_eq; field; lra.
  - unfold goals4. cbv zeta. rewrite !npow_power by assumption. f_equal; apply str_eq; field; lra.
  - unfold goals5. cbv zeta. rewrite !npow_power by assumption. f_equal; apply str_eq; field; lra.
Qed.
Print Assumptions C77_result.

(** ** Partials *)
Ltac cases := repeat match goal with |- context [(?a =? ?b)%nat] => destruct (Nat.eqb_spec a b); try (exfalso; lia) end.
Lemma sq_pos m : 0 < m -> 0 < sqrt m /\ sqrt m * sqrt m = m.
Proof. intro H. split; [now apply sqrt_lt_R0|]. apply sqrt_sqrt. lra. Qed.
Lemma npow_pos b q : 0 < b -> npow b q = Rpower b q.
Proof. intro H. unfold npow. destruct (Req_EM_T b 0); [lra|reflexivity]. Qed.

(** the derivative of the ratio of the midfields, and of its inverse *)
Definition dq1 (c d e f dc dd de df : R) : R := (dc * d + c * dd) / e * f - c * d * de / (e * e) * f + c * d / e * df.
Lemma ratio_der (c d e f : R -> R) (x dc dd de df : R) : is_derive c x dc -> is_derive d x dd -> is_derive e x de -> is_derive f x df -> e x <> 0 ->
  is_derive (fun t => c t * d t / e t * f t) x (dq1 (c x) (d x) (e x) (f x) dc dd de df).
Proof.
  intros A B C D N. unfold dq1. auto_derive.
  - repeat split; try (eexists; eassumption); assumption.
  - replace (Derive (fun x : R => c x) x) with dc by (symmetry; apply is_derive_unique; exact A).
    replace (Derive (fun x : R => d x) x) with dd by (symmetry; apply is_derive_unique; exact B).
    replace (Derive (fun x : R => e x) x) with de by (symmetry; apply is_derive_unique; exact C).
    replace (Derive (fun x : R => f x) x) with df by (symmetry; apply is_derive_unique; exact D).
    match goal with |- ?a = ?b => change (@eq R a b) end. field. exact N.
Qed.
Definition dq2 (c d e f dc dd de df : R) : R := de / (c * d) * f - e * (dc * d + c * dd) / (c * d * (c * d)) * f + e / (c * d) * df.
Lemma inverse_der (c d e f : R -> R) (x dc dd de df : R) : is_derive c x dc -> is_derive d x dd -> is_derive e x de -> is_derive f x df -> 0 < c x -> 0 < d x -> 0 < e x ->
  is_derive (fun t => 1 / (c t * d t / e t) * f t) x (dq2 (c x) (d x) (e x) (f x) dc dd de df).
Proof.
  intros A B C D P1 P2 P3. unfold dq2. assert (Q : c x * d x / e x <> 0) by (apply Rgt_not_eq, Rdiv_lt_0_compat; [now apply Rmult_lt_0_compat|assumption]). auto_derive.
  - repeat split; try (eexists; eassumption); try exact Q; lra.
  - replace (Derive (fun x : R => c x) x) with dc by (symmetry; apply is_derive_unique; exact A).
    replace (Derive (fun x : R => d x) x) with dd by (symmetry; apply is_derive_unique; exact B).
    replace (Derive (fun x : R => e x) x) with de by (symmetry; apply is_derive_unique; exact C).
    replace (Derive (fun x : R => f x) x) with df by (symmetry; apply is_derive_unique; exact D).
    match goal with |- ?a = ?b => change (@eq R a b) end. field. repeat split; try lra.
Qed.

(** both strengths as functions of one variable: a b c d e f: trials of the team itself, defense of the other, midfield and home advantage of the team at home,
    midfield of the team away, strategy of the team itself, g strategy of the other *)
Definition dst (a b m q da db dm dq : R) : R :=
  da * sqrt m * (1 - npow b q) + a * (dm / (2 * sqrt m)) * (1 - npow b q) - a * sqrt m * (npow b q * (dq * ln b + q * (db / b))).
Section Der.
Variables (a b c d e f g : R -> R) (x da db dc dd de df dg : R).
Hypotheses (A : is_derive a x da) (B : is_derive b x db) (C : is_derive c x dc) (D : is_derive d x dd) (E : is_derive e x de) (F : is_derive f x df) (G : is_derive g x dg).
Hypotheses (Pb : 0 < b x) (Pc : 0 < c x) (Pd : 0 < d x) (Pe : 0 < e x) (Pf : 0 < f x).
Lemma home_der : is_derive (fun t => a t * sqrt (c t * d t / e t * f t) * (1 - npow (b t) (c t * d t / e t * g t))) x
  (dst (a x) (b x) (c x * d x / e x * f x) (c x * d x / e x * g x) da db (dq1 (c x) (d x) (e x) (f x) dc dd de df) (dq1 (c x) (d x) (e x) (g x) dc dd de dg)).
Proof.
  unfold dst. rewrite (npow_pos (b x)) by exact Pb.
  apply (strength a b (fun t => c t * d t / e t * f t) (fun t => c t * d t / e t * g t)); try assumption; try (apply ratio_der; trivial; lra).
  apply Rmult_lt_0_compat; [apply Rdiv_lt_0_compat; [now apply Rmult_lt_0_compat|]|]; assumption.
Qed.
Lemma away_der : is_derive (fun t => a t * sqrt (1 / (c t * d t / e t) * f t) * (1 - npow (b t) (1 / (c t * d t / e t) * g t))) x
  (dst (a x) (b x) (1 / (c x * d x / e x) * f x) (1 / (c x * d x / e x) * g x) da db (dq2 (c x) (d x) (e x) (f x) dc dd de df) (dq2 (c x) (d x) (e x) (g x) dc dd de dg)).
Proof.
  unfold dst. rewrite (npow_pos (b x)) by exact Pb.
  apply (strength a b (fun t => 1 / (c t * d t / e t) * f t) (fun t => 1 / (c t * d t / e t) * g t)); try assumption; try (apply inverse_der; trivial; lra).
  apply Rmult_lt_0_compat; [apply Rdiv_lt_0_compat; [lra|]; apply Rdiv_lt_0_compat; [now apply Rmult_lt_0_compat|]|]; assumption.
Qed.
End Der.
Lemma const_der (v x : R) : is_derive (fun _ : R => v) x 0.
Proof. auto_derive; trivial. Qed.

Lemma part3_home par t0 t1 j : t0 <> t1 -> (forall i t, (t = t0 \/ t = t1) -> (1 <= i < 3)%nat -> 0 < par (t * 3 + i)%nat) ->
  is_derive (fun v => fst (goals3 (upd par j v) t0 t1)) (par j) (fst (part3 par t0 t1) j).
Proof.
  intros N P. unfold goals3, part3. cbn [fst snd]. set (k0 := (t0 * 3)%nat) in *. set (k1 := (t1 * 3)%nat) in *.
  assert (PB := P 1%nat t1 ltac:(auto) ltac:(lia)). fold k1 in PB.
  assert (PC := P 2%nat t0 ltac:(auto) ltac:(lia)). fold k0 in PC.
  assert (PE := P 2%nat t1 ltac:(auto) ltac:(lia)). fold k1 in PE.
  assert (PD : 0 < 1) by lra.
  assert (PF : 0 < 1) by lra.
  assert (H := home_der (fun v => upd par j v k0) (fun v => upd par j v (k1 + 1)%nat) (fun v => upd par j v (k0 + 2)%nat) (fun _ => 1) (fun v => upd par j v (k1 + 2)%nat) (fun _ => 1) (fun _ => 1) (par j) _ _ _ _ _ _ _
    (upd_der par k0 j) (upd_der par (k1 + 1) j) (upd_der par (k0 + 2) j) (const_der 1 (par j)) (upd_der par (k1 + 2) j) (const_der 1 (par j)) (const_der 1 (par j))).
  cbv beta in H. rewrite !upd_at in H. specialize (H PB PC PD PE PF).
  match type of H with is_derive _ _ ?v => match goal with |- is_derive _ _ ?w => replace w with v; [|clear H] end end.
  { revert H. apply is_derive_ext. intro v. match goal with |- _ = ?r => assert (EE : forall a b m q m' q', m = m' -> q = q' -> a * sqrt m * (1 - npow b q) = a * sqrt m' * (1 - npow b q')) by (now intros a b m q m' q' -> ->) end.
    apply EE; rewrite ?Rmult_1_r; reflexivity. }
  unfold dst, dq1, dq2, row. cbn [fold_left fst snd]. unfold del.
  set (a := par k0) in *. set (b := par (k1 + 1)%nat) in *. set (c0 := par (k0 + 2)%nat) in *. set (c1 := par (k1 + 2)%nat) in *.
  replace (c0 * 1 / c1 * 1) with (c0 / c1) by (field; lra).
  assert (M : 0 < c0 / c1) by (repeat first [assumption | lra | apply Rdiv_lt_0_compat | apply Rmult_lt_0_compat]).
  destruct (sq_pos _ M) as [S1 S2]. set (s := sqrt (c0 / c1)) in *. set (pp := npow b (c0 / c1)). set (lb := ln b).
  assert (EF : c0 = s * s * c1) by (rewrite S2; field; lra). clear S2 M.
  unfold k0, k1 in *. clear k0 k1. clearbody a b c0 c1   s pp lb. subst c0.
  cases; field; repeat split; lra.
Qed.
Lemma part3_away par t0 t1 j : t0 <> t1 -> (forall i t, (t = t0 \/ t = t1) -> (1 <= i < 3)%nat -> 0 < par (t * 3 + i)%nat) ->
  is_derive (fun v => snd (goals3 (upd par j v) t0 t1)) (par j) (snd (part3 par t0 t1) j).
Proof.
  intros N P. unfold goals3, part3. cbn [fst snd]. set (k0 := (t0 * 3)%nat) in *. set (k1 := (t1 * 3)%nat) in *.
  assert (PB := P 1%nat t0 ltac:(auto) ltac:(lia)). fold k0 in PB.
  assert (PC := P 2%nat t0 ltac:(auto) ltac:(lia)). fold k0 in PC.
  assert (PE := P 2%nat t1 ltac:(auto) ltac:(lia)). fold k1 in PE.
  assert (PD : 0 < 1) by lra.
  assert (PF : 0 < 1) by lra.
  assert (H := away_der (fun v => upd par j v k1) (fun v => upd par j v (k0 + 1)%nat) (fun v => upd par j v (k0 + 2)%nat) (fun _ => 1) (fun v => upd par j v (k1 + 2)%nat) (fun _ => 1) (fun _ => 1) (par j) _ _ _ _ _ _ _
    (upd_der par k1 j) (upd_der par (k0 + 1) j) (upd_der par (k0 + 2) j) (const_der 1 (par j)) (upd_der par (k1 + 2) j) (const_der 1 (par j)) (const_der 1 (par j))).
  cbv beta in H. rewrite !upd_at in H. specialize (H PB PC PD PE PF).
  match type of H with is_derive _ _ ?v => match goal with |- is_derive _ _ ?w => replace w with v; [|clear H] end end.
  { revert H. apply is_derive_ext. intro v. match goal with |- _ = ?r => assert (EE : forall a b m q m' q', m = m' -> q = q' -> a * sqrt m * (1 - npow b q) = a * sqrt m' * (1 - npow b q')) by (now intros a b m q m' q' -> ->) end.
    apply EE; rewrite ?Rmult_1_r; reflexivity. }
  unfold dst, dq1, dq2, row. cbn [fold_left fst snd]. unfold del.
  set (a := par k1) in *. set (b := par (k0 + 1)%nat) in *. set (c0 := par (k0 + 2)%nat) in *. set (c1 := par (k1 + 2)%nat) in *.
  replace (1 / (c0 * 1 / c1) * 1) with (1 / (c0 / c1)) by (field; lra).
  assert (M : 0 < 1 / (c0 / c1)) by (repeat first [assumption | lra | apply Rdiv_lt_0_compat | apply Rmult_lt_0_compat]).
  destruct (sq_pos _ M) as [S1 S2]. set (s := sqrt (1 / (c0 / c1))) in *. set (pp := npow b (1 / (c0 / c1))). set (lb := ln b).
  assert (EF : c1 = s * s * c0) by (rewrite S2; field; lra). clear S2 M.
  unfold k0, k1 in *. clear k0 k1. clearbody a b c0 c1   s pp lb. subst c1.
  cases; field; repeat split; lra.
Qed.
Lemma part4_home par t0 t1 j : t0 <> t1 -> (forall i t, (t = t0 \/ t = t1) -> (1 <= i < 4)%nat -> 0 < par (t * 4 + i)%nat) ->
  is_derive (fun v => fst (goals4 (upd par j v) t0 t1)) (par j) (fst (part4 par t0 t1) j).
Proof.
  intros N P. unfold goals4, part4. cbn [fst snd]. set (k0 := (t0 * 4)%nat) in *. set (k1 := (t1 * 4)%nat) in *.
  assert (PB := P 1%nat t1 ltac:(auto) ltac:(lia)). fold k1 in PB.
  assert (PC := P 2%nat t0 ltac:(auto) ltac:(lia)). fold k0 in PC.
  assert (PE := P 2%nat t1 ltac:(auto) ltac:(lia)). fold k1 in PE.
  assert (PD := P 3%nat t0 ltac:(auto) ltac:(lia)). fold k0 in PD.
  assert (PF : 0 < 1) by lra.
  assert (H := home_der (fun v => upd par j v k0) (fun v => upd par j v (k1 + 1)%nat) (fun v => upd par j v (k0 + 2)%nat) (fun v => upd par j v (k0 + 3)%nat) (fun v => upd par j v (k1 + 2)%nat) (fun _ => 1) (fun _ => 1) (par j) _ _ _ _ _ _ _
    (upd_der par k0 j) (upd_der par (k1 + 1) j) (upd_der par (k0 + 2) j) (upd_der par (k0 + 3) j) (upd_der par (k1 + 2) j) (const_der 1 (par j)) (const_der 1 (par j))).
  cbv beta in H. rewrite !upd_at in H. specialize (H PB PC PD PE PF).
  match type of H with is_derive _ _ ?v => match goal with |- is_derive _ _ ?w => replace w with v; [|clear H] end end.
  { revert H. apply is_derive_ext. intro v. match goal with |- _ = ?r => assert (EE : forall a b m q m' q', m = m' -> q = q' -> a * sqrt m * (1 - npow b q) = a * sqrt m' * (1 - npow b q')) by (now intros a b m q m' q' -> ->) end.
    apply EE; rewrite ?Rmult_1_r; reflexivity. }
  unfold dst, dq1, dq2, row. cbn [fold_left fst snd]. unfold del.
  set (a := par k0) in *. set (b := par (k1 + 1)%nat) in *. set (c0 := par (k0 + 2)%nat) in *. set (c1 := par (k1 + 2)%nat) in *. set (d0 := par (k0 + 3)%nat) in *.
  replace (c0 * d0 / c1 * 1) with (c0 * d0 / c1) by (field; lra).
  assert (M : 0 < c0 * d0 / c1) by (repeat first [assumption | lra | apply Rdiv_lt_0_compat | apply Rmult_lt_0_compat]).
  destruct (sq_pos _ M) as [S1 S2]. set (s := sqrt (c0 * d0 / c1)) in *. set (pp := npow b (c0 * d0 / c1)). set (lb := ln b).
  assert (EF : c0 = s * s * c1 / d0) by (rewrite S2; field; lra). clear S2 M.
  unfold k0, k1 in *. clear k0 k1. clearbody a b c0 c1 d0  s pp lb. subst c0.
  cases; field; repeat split; lra.
Qed.
Lemma part4_away par t0 t1 j : t0 <> t1 -> (forall i t, (t = t0 \/ t = t1) -> (1 <= i < 4)%nat -> 0 < par (t * 4 + i)%nat) ->
  is_derive (fun v => snd (goals4 (upd par j v) t0 t1)) (par j) (snd (part4 par t0 t1) j).
Proof.
  intros N P. unfold goals4, part4. cbn [fst snd]. set (k0 := (t0 * 4)%nat) in *. set (k1 := (t1 * 4)%nat) in *.
  assert (PB := P 1%nat t0 ltac:(auto) ltac:(lia)). fold k0 in PB.
  assert (PC := P 2%nat t0 ltac:(auto) ltac:(lia)). fold k0 in PC.
  assert (PE := P 2%nat t1 ltac:(auto) ltac:(lia)). fold k1 in PE.
  assert (PD := P 3%nat t0 ltac:(auto) ltac:(lia)). fold k0 in PD.
  assert (PF : 0 < 1) by lra.
  assert (H := away_der (fun v => upd par j v k1) (fun v => upd par j v (k0 + 1)%nat) (fun v => upd par j v (k0 + 2)%nat) (fun v => upd par j v (k0 + 3)%nat) (fun v => upd par j v (k1 + 2)%nat) (fun _ => 1) (fun _ => 1) (par j) _ _ _ _ _ _ _
    (upd_der par k1 j) (upd_der par (k0 + 1) j) (upd_der par (k0 + 2) j) (upd_der par (k0 + 3) j) (upd_der par (k1 + 2) j) (const_der 1 (par j)) (const_der 1 (par j))).
  cbv beta in H. rewrite !upd_at in H. specialize (H PB PC PD PE PF).
  match type of H with is_derive _ _ ?v => match goal with |- is_derive _ _ ?w => replace w with v; [|clear H] end end.
  { revert H. apply is_derive_ext. intro v. match goal with |- _ = ?r => assert (EE : forall a b m q m' q', m = m' -> q = q' -> a * sqrt m * (1 - npow b q) = a * sqrt m' * (1 - npow b q')) by (now intros a b m q m' q' -> ->) end.
    apply EE; rewrite ?Rmult_1_r; reflexivity. }
  unfold dst, dq1, dq2, row. cbn [fold_left fst snd]. unfold del.
  set (a := par k1) in *. set (b := par (k0 + 1)%nat) in *. set (c0 := par (k0 + 2)%nat) in *. set (c1 := par (k1 + 2)%nat) in *. set (d0 := par (k0 + 3)%nat) in *.
  replace (1 / (c0 * d0 / c1) * 1) with (1 / (c0 * d0 / c1)) by (field; lra).
  assert (M : 0 < 1 / (c0 * d0 / c1)) by (repeat first [assumption | lra | apply Rdiv_lt_0_compat | apply Rmult_lt_0_compat]).
  destruct (sq_pos _ M) as [S1 S2]. set (s := sqrt (1 / (c0 * d0 / c1))) in *. set (pp := npow b (1 / (c0 * d0 / c1))). set (lb := ln b).
  assert (EF : c1 = s * s * (c0 * d0)) by (rewrite S2; field; lra). clear S2 M.
  unfold k0, k1 in *. clear k0 k1. clearbody a b c0 c1 d0  s pp lb. subst c1.
  cases; field; repeat split; lra.
Qed.
Lemma part5_home par t0 t1 j : t0 <> t1 -> (forall i t, (t = t0 \/ t = t1) -> (1 <= i < 5)%nat -> 0 < par (t * 5 + i)%nat) ->
  is_derive (fun v => fst (goals5 (upd par j v) t0 t1)) (par j) (fst (part5 par t0 t1) j).
Proof.
  intros N P. unfold goals5, part5. cbn [fst snd]. set (k0 := (t0 * 5)%nat) in *. set (k1 := (t1 * 5)%nat) in *.
  assert (PB := P 1%nat t1 ltac:(auto) ltac:(lia)). fold k1 in PB.
  assert (PC := P 2%nat t0 ltac:(auto) ltac:(lia)). fold k0 in PC.
  assert (PE := P 2%nat t1 ltac:(auto) ltac:(lia)). fold k1 in PE.
  assert (PD := P 3%nat t0 ltac:(auto) ltac:(lia)). fold k0 in PD.
  assert (PF := P 4%nat t0 ltac:(auto) ltac:(lia)). fold k0 in PF.
  assert (PG := P 4%nat t1 ltac:(auto) ltac:(lia)). fold k1 in PG.
  assert (H := home_der (fun v => upd par j v k0) (fun v => upd par j v (k1 + 1)%nat) (fun v => upd par j v (k0 + 2)%nat) (fun v => upd par j v (k0 + 3)%nat) (fun v => upd par j v (k1 + 2)%nat) (fun v => upd par j v (k0 + 4)%nat) (fun v => upd par j v (k1 + 4)%nat) (par j) _ _ _ _ _ _ _
    (upd_der par k0 j) (upd_der par (k1 + 1) j) (upd_der par (k0 + 2) j) (upd_der par (k0 + 3) j) (upd_der par (k1 + 2) j) (upd_der par (k0 + 4) j) (upd_der par (k1 + 4) j)).
  cbv beta in H. rewrite !upd_at in H. specialize (H PB PC PD PE PF).
  match type of H with is_derive _ _ ?v => match goal with |- is_derive _ _ ?w => replace w with v; [exact H|clear H] end end.
  unfold dst, dq1, dq2, row. cbn [fold_left fst snd]. unfold del.
  set (a := par k0) in *. set (b := par (k1 + 1)%nat) in *. set (c0 := par (k0 + 2)%nat) in *. set (c1 := par (k1 + 2)%nat) in *. set (d0 := par (k0 + 3)%nat) in *. set (f := par (k0 + 4)%nat) in *. set (g := par (k1 + 4)%nat) in *.
  replace (c0 * d0 / c1 * g) with (c0 * d0 * g / c1) by (field; lra).
  replace (c0 * d0 / c1 * f) with (c0 * d0 * f / c1) by (field; lra).
  assert (M : 0 < c0 * d0 * f / c1) by (repeat first [assumption | lra | apply Rdiv_lt_0_compat | apply Rmult_lt_0_compat]).
  destruct (sq_pos _ M) as [S1 S2]. set (s := sqrt (c0 * d0 * f / c1)) in *. set (pp := npow b (c0 * d0 * g / c1)). set (lb := ln b).
  assert (EF : f = s * s * c1 / (c0 * d0)) by (rewrite S2; field; lra). clear S2 M.
  unfold k0, k1 in *. clear k0 k1. clearbody a b c0 c1 d0 f g s pp lb. subst f.
  cases; field; repeat split; lra.
Qed.
Lemma part5_away par t0 t1 j : t0 <> t1 -> (forall i t, (t = t0 \/ t = t1) -> (1 <= i < 5)%nat -> 0 < par (t * 5 + i)%nat) ->
  is_derive (fun v => snd (goals5 (upd par j v) t0 t1)) (par j) (snd (part5 par t0 t1) j).
Proof.
  intros N P. unfold goals5, part5. cbn [fst snd]. set (k0 := (t0 * 5)%nat) in *. set (k1 := (t1 * 5)%nat) in *.
  assert (PB := P 1%nat t0 ltac:(auto) ltac:(lia)). fold k0 in PB.
  assert (PC := P 2%nat t0 ltac:(auto) ltac:(lia)). fold k0 in PC.
  assert (PE := P 2%nat t1 ltac:(auto) ltac:(lia)). fold k1 in PE.
  assert (PD := P 3%nat t0 ltac:(auto) ltac:(lia)). fold k0 in PD.
  assert (PF := P 4%nat t1 ltac:(auto) ltac:(lia)). fold k1 in PF.
  assert (PG := P 4%nat t0 ltac:(auto) ltac:(lia)). fold k0 in PG.
  assert (H := away_der (fun v => upd par j v k1) (fun v => upd par j v (k0 + 1)%nat) (fun v => upd par j v (k0 + 2)%nat) (fun v => upd par j v (k0 + 3)%nat) (fun v => upd par j v (k1 + 2)%nat) (fun v => upd par j v (k1 + 4)%nat) (fun v => upd par j v (k0 + 4)%nat) (par j) _ _ _ _ _ _ _
    (upd_der par k1 j) (upd_der par (k0 + 1) j) (upd_der par (k0 + 2) j) (upd_der par (k0 + 3) j) (upd_der par (k1 + 2) j) (upd_der par (k1 + 4) j) (upd_der par (k0 + 4) j)).
  cbv beta in H. rewrite !upd_at in H. specialize (H PB PC PD PE PF).
  match type of H with is_derive _ _ ?v => match goal with |- is_derive _ _ ?w => replace w with v; [exact H|clear H] end end.
  unfold dst, dq1, dq2, row. cbn [fold_left fst snd]. unfold del.
  set (a := par k1) in *. set (b := par (k0 + 1)%nat) in *. set (c0 := par (k0 + 2)%nat) in *. set (c1 := par (k1 + 2)%nat) in *. set (d0 := par (k0 + 3)%nat) in *. set (f := par (k1 + 4)%nat) in *. set (g := par (k0 + 4)%nat) in *.
  replace (1 / (c0 * d0 / c1) * g) with (c1 * g / (c0 * d0)) by (field; lra).
  replace (1 / (c0 * d0 / c1) * f) with (c1 * f / (c0 * d0)) by (field; lra).
  assert (M : 0 < c1 * f / (c0 * d0)) by (repeat first [assumption | lra | apply Rdiv_lt_0_compat | apply Rmult_lt_0_compat]).
  destruct (sq_pos _ M) as [S1 S2]. set (s := sqrt (c1 * f / (c0 * d0))) in *. set (pp := npow b (c1 * g / (c0 * d0))). set (lb := ln b).
  assert (EF : f = s * s * (c0 * d0) / c1) by (rewrite S2; field; lra). clear S2 M.
  unfold k0, k1 in *. clear k0 k1. clearbody a b c0 c1 d0 f g s pp lb. subst f.
  cases; field; repeat split; lra.
Qed.

(** Every partial that basePartial returns is the derivative of the strength of that team to that parameter; for the parameters of all teams, also of those not in the match.
    Parameters other than the number of trials are within their limits (positive). *)
Theorem C77_partials c g f par t0 t1 : goals c = Some g -> parts c = Some f -> t0 <> t1 ->
  (forall i t, (t = t0 \/ t = t1) -> (1 <= i < c)%nat -> 0 < par (t * c + i)%nat) ->
  forall j, is_derive (fun v => fst (g (upd par j v) t0 t1)) (par j) (fst (f par t0 t1) j)
         /\ is_derive (fun v => snd (g (upd par j v) t0 t1)) (par j) (snd (f par t0 t1) j).
Proof.
  intros G F N P j. destruct c as [|[|[|[|[|[|c]]]]]]; try discriminate G; injection G as <-; injection F as <-.
  - unfold goals1, part1, row. cbn [fst snd fold_left]. split; [exact (upd_der par t0 j)|exact (upd_der par t1 j)].
  - unfold goals2, part2, row. cbn [fst snd fold_left]. split; unfold upd; cases; auto_derive; trivial; ring.
  - split; [now apply part3_home|now apply part3_away].
  - split; [now apply part4_home|now apply part4_away].
  - split; [now apply part5_home|now apply part5_away].
Qed.
Print Assumptions C77_partials.

(** ** With parameters that are fixed *)
(** what is asked: the columns of the parameters in the list *)
Definition wanted (f : nat -> R) (parlist : list nat) : nat -> R := fun j => f (nth j parlist 0%nat).
(** The list of the parameters that are not fixed is ignored: the columns are those of the first parameters.  One parameter fixed, the first one:
    the first column is the partial to that fixed parameter. *)
Theorem C77_fixed_refuted : exists par r, fixedPartial 2 5 par 0 1 [1; 2; 3; 4; 5]%nat = Some r /\ fst r 0%nat <> wanted (fst (part2 par 0 1)) [1; 2; 3; 4; 5]%nat 0%nat.
Proof. exists (fun _ => / 2). eexists. split; [reflexivity|]. unfold part2, wanted, row. cbn. lra. Qed.
Print Assumptions C77_fixed_refuted.
(** Whichever parameter is fixed, there is no partial (IndexError) at a match that the last team plays at home. *)
Theorem C77_last_refuted c nteams par t1 parlist : (1 <= c)%nat -> (t1 < nteams)%nat -> fixedPartial c (nteams * c - 1) par (nteams - 1) t1 parlist = None.
Proof.
  intros P L. unfold fixedPartial. destruct (parts c) eqn:E; [|reflexivity]. destruct (Nat.eqb_spec c 4) as [->|N].
  - destruct (Nat.ltb_spec (Nat.max ((nteams - 1) * 4 + 3) (t1 * 4 + 2)) (nteams * 4 - 1)); [lia|reflexivity].
  - destruct (Nat.ltb_spec (Nat.max (nteams - 1) t1 * c + (c - 1)) (nteams * c - 1)) as [X|X]; [|reflexivity]. exfalso.
    replace (Nat.max (nteams - 1) t1) with (nteams - 1)%nat in X by lia. destruct nteams; [lia|]. cbn [Nat.sub] in X. rewrite Nat.sub_0_r in X. lia.
Qed.
Print Assumptions C77_last_refuted.
(** Without fixed parameters there is always one, and it is that of C77_partials. *)
Theorem C77_free c f nteams par t0 t1 parlist : parts c = Some f -> (t0 < nteams)%nat -> (t1 < nteams)%nat -> fixedPartial c (nteams * c) par t0 t1 parlist = Some (f par t0 t1).
Proof.
  intros F L0 L1. unfold fixedPartial. rewrite F. assert (P : (1 <= c)%nat) by (destruct c; [discriminate F|lia]).
  destruct (Nat.eqb_spec c 4) as [->|N].
  - destruct (Nat.ltb_spec (Nat.max (t0 * 4 + 3) (t1 * 4 + 2)) (nteams * 4)); [reflexivity|lia].
  - destruct (Nat.ltb_spec (Nat.max t0 t1 * c + (c - 1)) (nteams * c)) as [X|X]; [reflexivity|]. exfalso.
    assert ((Nat.max t0 t1 + 1) * c <= nteams * c)%nat by (apply Nat.mul_le_mono_r; lia). lia.
Qed.
Print Assumptions C77_free.

(** ** Priors *)
(** The prior of parameter k of a team is that of parameter k of every other team. *)
Theorem C77_prior {P} c (priors : list P) d t i : (i < c)%nat -> (length priors = c)%nat -> ownPrior c priors d (t * c + i) = nth i priors d.
Proof.
  intros I L. unfold ownPrior. rewrite Nat.add_comm, Nat.mod_add by lia.
  rewrite Nat.mod_small by exact I. f_equal. lia.
Qed.
Print Assumptions C77_prior.
(** In a compound model the parameters of the models that follow have priors of their own; asked from the football model at the head of the chain,
    one of its own priors comes back. *)
Theorem C77_compound_refuted : exists (priors next : list nat) npars, (2 * 3 = npars)%nat /\ length priors = 2%nat /\
  forall d, (ownPrior 2 priors d (npars + 0) <> nth 0 next d)%nat.
Proof. exists [10; 11]%nat, [20]%nat, 6%nat. repeat split. intro d. cbn. discriminate. Qed.
Print Assumptions C77_compound_refuted.

Example C77_example : within (teamOf 5 (fun i => if (i mod 5 =? 1)%nat then / 2 else 1) 0) /\
  strengths (mkT 2 (/ 2) 1 1 1) (mkT 1 0 1 1 1) = (2, / 2) /\ fst (part2 (fun _ => / 2) 0 1) 0%nat = / 2 /\ fixedPartial 2 5 (fun _ => 1) 2 0 [] = None /\
  ownPrior 5 [1; 2; 3; 4; 5]%nat 0%nat 12 = 3%nat.
Proof.
  split; [|split]; [..|repeat split].
  - unfold within, teamOf. cbn. lra.
  - unfold strengths. cbn [ta tb tc td tf]. replace (1 * 1 * 1 / 1) with 1 by field. replace (1 * 1 / (1 * 1)) with 1 by field. rewrite sqrt_1, !power_1 by lra. f_equal; lra.
  - unfold part2, row. cbn. lra.
Qed.
