(** C52: splines. *)
From Coquelicot Require Import Coquelicot.
From Coq Require Import List Arith ZArith Reals Bool Lia Lra Psatz Sorted.
From Verif Require Import L_Sum M_Splines.
Import ListNotations.
Local Open Scope R_scope.
Set Default Proof Using "Type".

(** The truncated power of degree o that starts at knot j; the first one starts nowhere. *)
Definition tpow (o : nat) (knots : list R) (j : nat) (x : R) : R :=
  if (j =? 0)%nat then x ^ o else if Rle_dec (nth j knots 0) x then (x - nth j knots 0) ^ o else 0.

(** The functions of which a spline is a sum. *)
Definition spline (o : nat) (knots : list R) (k : nat) (x : R) : R :=
  if (k <? o)%nat then x ^ k
  else if (S (k - o) <? length knots - 1)%nat then tpow o knots (k - o) x - tpow o knots (S (k - o)) x
  else tpow o knots (k - o) x.

Definition ascending (knots : list R) : Prop := forall i j, (i <= j < length knots)%nat -> nth i knots 0 <= nth j knots 0.

Definition np_ (o : nat) (knots : list R) : nat := (o + length knots - 1)%nat.

Section Columns.
  Context (o : nat) (knots : list R).
  Notation np := (npar (Z.of_nat o) knots).

  (** A row when the column of knot j is the next to be made. *)
  Definition inv (j : nat) (r : drow) : Prop :=
    (r_on r = true -> r_pow r = tpow o knots j (r_x r)) /\ (r_on r = false -> (0 < j)%nat /\ r_x r < nth j knots 0) /\
    (forall k, (k < o + j)%nat -> r_row r k = spline o knots k (r_x r)) /\
    (forall k, (o + j <= k)%nat -> r_row r k = 0).

  Lemma col_eq j : col np (Z.of_nat (o + j)) = (o + j)%nat.
  Proof. unfold col. destruct (Z.ltb_spec (Z.of_nat (o + j)) 0); lia. Qed.

  Lemma off_zero j x : (0 < j)%nat -> x < nth j knots 0 -> tpow o knots j x = 0.
  Proof. intros J L. unfold tpow. destruct (Nat.eqb_spec j 0); [lia|]. destruct (Rle_dec _ _); [lra|reflexivity]. Qed.

  Lemma fill_row j r : inv j r -> forall k, r_row (fill np (Z.of_nat (o + j)) r) k =
    if (k =? o + j)%nat then tpow o knots j (r_x r) else r_row r k.
  Proof.
    intros (P1 & P2 & P3 & P4) k. unfold fill. destruct (r_on r) eqn:E.
    - cbn [r_row]. unfold put. rewrite col_eq. destruct (Nat.eqb_spec k (o + j)); [apply P1; reflexivity|reflexivity].
    - destruct (Nat.eqb_spec k (o + j)) as [->|]; [|reflexivity]. destruct (P2 eq_refl). rewrite off_zero by assumption. apply P4. lia.
  Qed.
  Lemma fill_x j r : r_x (fill np (Z.of_nat (o + j)) r) = r_x r.
  Proof. unfold fill. destruct (r_on r); reflexivity. Qed.

  Lemma spline_last j x : (S j = length knots - 1)%nat -> spline o knots (o + j) x = tpow o knots j x.
  Proof.
    intro E. unfold spline. destruct (Nat.ltb_spec (o + j) o); [lia|]. replace (o + j - o)%nat with j by lia.
    destruct (Nat.ltb_spec (S j) (length knots - 1)); [lia|reflexivity].
  Qed.
  Lemma spline_mid j x : (S j < length knots - 1)%nat -> spline o knots (o + j) x = tpow o knots j x - tpow o knots (S j) x.
  Proof.
    intro E. unfold spline. destruct (Nat.ltb_spec (o + j) o); [lia|]. replace (o + j - o)%nat with j by lia.
    destruct (Nat.ltb_spec (S j) (length knots - 1)); [reflexivity|lia].
  Qed.

  Lemma knot_inv j r : (S j < length knots - 1)%nat -> inv j r ->
    inv (S j) (knot (Z.of_nat o) np (Z.of_nat (o + j)) (nth (S j) knots 0) (fill np (Z.of_nat (o + j)) r)).
  Proof.
    intros Hj Q. pose proof (fill_row j r Q) as F. pose proof (fill_x j r) as X. destruct Q as (P1 & P2 & P3 & P4).
    set (f := fill np (Z.of_nat (o + j)) r) in *. unfold knot, past. rewrite X. rewrite Nat2Z.id.
    destruct (Rle_dec (nth (S j) knots 0) (r_x r)) as [L|L].
    - split; [|split; [|split]]; cbn [r_on r_pow r_x r_row].
      + intros _. unfold tpow. cbn [Nat.eqb]. destruct (Rle_dec _ _); [reflexivity|lra].
      + discriminate.
      + intros k Hkk. unfold put. rewrite col_eq. destruct (Nat.eqb_spec k (o + j)) as [->|N].
        * rewrite F, Nat.eqb_refl, spline_mid by assumption. f_equal. unfold tpow. cbn [Nat.eqb]. destruct (Rle_dec _ _); [reflexivity|lra].
        * rewrite F. destruct (Nat.eqb_spec k (o + j)); [lia|]. apply P3. lia.
      + intros k Hkk. unfold put. rewrite col_eq. destruct (Nat.eqb_spec k (o + j)); [lia|]. rewrite F. destruct (Nat.eqb_spec k (o + j)); [lia|]. apply P4. lia.
    - split; [|split; [|split]]; cbn [r_on r_pow r_x r_row].
      + discriminate.
      + intros _. split; [lia|lra].
      + intros k Hkk. rewrite F. destruct (Nat.eqb_spec k (o + j)) as [->|N]; [|apply P3; lia].
        rewrite spline_mid by assumption. rewrite (off_zero (S j)) by (lia || lra). lra.
      + intros k Hkk. rewrite F. destruct (Nat.eqb_spec k (o + j)); [lia|]. apply P4. lia.
  Qed.

  Lemma start_inv x : inv 0 (start (Z.of_nat o) x).
  Proof.
    unfold start. rewrite Nat2Z.id. split; [|split; [|split]]; cbn [r_on r_pow r_x r_row].
    - reflexivity.
    - discriminate.
    - intros k H. destruct (Nat.ltb_spec k o); [|lia]. unfold spline. destruct (Nat.ltb_spec k o); [reflexivity|lia].
    - intros k H. destruct (Nat.ltb_spec k o); [lia|reflexivity].
  Qed.

  Context (Up : ascending knots).
  Definition done (r : drow) : Prop := forall k, (k < np_ o knots)%nat -> r_row r k = spline o knots k (r_x r).

  Lemma columns_ok n : forall j rs, (S (j + n) = length knots - 1)%nat -> Forall (inv j) rs ->
    Forall done (columns n (Z.of_nat o) np knots (Z.of_nat (o + j)) rs) /\
    map r_x (columns n (Z.of_nat o) np knots (Z.of_nat (o + j)) rs) = map r_x rs.
  Proof using Up.
    induction n as [|n IH]; intros j rs E Q; cbn [columns].
    - split.
      + apply Forall_map. revert Q. apply Forall_impl. intros r Q k Hkk. rewrite (fill_row j r Q), fill_x.
        unfold np_ in Hkk. destruct (Nat.eqb_spec k (o + j)) as [->|N]; [symmetry; apply spline_last; lia|]. apply Q. lia.
      + rewrite map_map. apply map_ext. intro r. apply fill_x.
    - replace (Z.to_nat (Z.of_nat (o + j) - (Z.of_nat o - 1))) with (S j) by lia.
      replace (Z.of_nat (o + j) + 1)%Z with (Z.of_nat (o + S j)) by lia.
      destruct (existsb _ _) eqn:X.
      + rewrite map_map. specialize (IH (S j) (map (fun r => knot (Z.of_nat o) np (Z.of_nat (o + j)) (nth (S j) knots 0) (fill np (Z.of_nat (o + j)) r)) rs) ltac:(lia)).
        destruct IH as (A & B).
        { apply Forall_map. revert Q. apply Forall_impl. intros r Q. apply knot_inv; [lia|exact Q]. }
        split; [exact A|]. rewrite B, map_map. apply map_ext. intro r. unfold knot. destruct (past _ _); cbn [r_x]; apply fill_x.
      + split; [|rewrite map_map; apply map_ext; intro; apply fill_x].
        apply Forall_map. apply Forall_forall. intros r Hr. rewrite Forall_forall in Q. pose proof (Q r Hr) as Qr.
        assert (L : r_x r < nth (S j) knots 0).
        { apply Rnot_le_lt. intro L. assert (Y : existsb (past (nth (S j) knots 0)) (map (fill np (Z.of_nat (o + j))) rs) = true); [|congruence].
          apply existsb_exists. exists (fill np (Z.of_nat (o + j)) r). split; [apply in_map; exact Hr|]. unfold past. rewrite fill_x. destruct (Rle_dec _ _); [reflexivity|lra]. }
        intros k Hkk. rewrite (fill_row j r Qr), fill_x. destruct Qr as (P1 & P2 & P3 & P4).
        assert (Z : forall i, (S j <= i < length knots)%nat -> tpow o knots i (r_x r) = 0).
        { intros i Hi. apply off_zero; [lia|]. pose proof (Up (S j) i ltac:(lia)). lra. }
        unfold np_ in Hkk. destruct (Nat.eqb_spec k (o + j)) as [->|N].
        * rewrite spline_mid by lia. rewrite (Z (S j)) by lia. lra.
        * destruct (Nat.lt_ge_cases k (o + j)); [apply P3; assumption|]. rewrite P4 by assumption.
          replace k with (o + (k - o))%nat by lia. destruct (Nat.eq_dec (S (k - o)) (length knots - 1)) as [e|e].
          -- rewrite spline_last by assumption. symmetry. apply Z. lia.
          -- rewrite spline_mid by lia. rewrite !Z by lia. lra.
  Qed.

End Columns.

(** The columns of the matrix are the spline functions at the data points. *)
Theorem C52_basis o knots xs : (2 <= length knots)%nat -> ascending knots ->
  exists rows, basePartial (Z.of_nat o) knots xs = Some rows /\ length rows = length xs /\
    forall i k, (i < length xs)%nat -> (k < o + length knots - 1)%nat ->
      nth i rows (fun _ => 0) k = spline o knots k (nth i xs 0).
Proof.
  intros H Up. unfold basePartial. destruct (Nat.ltb_spec (length knots) 2); [lia|]. destruct (Z.ltb_spec (npar (Z.of_nat o) knots) 1); [unfold npar in *; lia|].
  cbn [orb]. eexists. split; [reflexivity|].
  assert (Q0 : Forall (inv o knots 0) (map (start (Z.of_nat o)) xs)) by (apply Forall_map, Forall_forall; intros; apply start_inv).
  destruct (columns_ok o knots Up (length knots - 2) 0 _ ltac:(lia) Q0) as (D & X).
  replace (Z.of_nat (o + 0)) with (Z.of_nat o) in D, X by lia.
  set (rs := columns _ _ _ _ _ _) in *. rewrite map_map in X. cbn [start r_x] in X. rewrite map_id in X.
  assert (L : length rs = length xs) by (rewrite <- X, map_length; reflexivity).
  split; [rewrite map_length; exact L|]. intros i k Hi Hkk.
  rewrite (nth_indep _ _ (r_row (start 0 0))) by (rewrite map_length; lia). rewrite map_nth.
  rewrite Forall_forall in D. rewrite (D (nth i rs (start 0 0)) ltac:(apply nth_In; lia) k Hkk). f_equal.
  rewrite <- X. rewrite (nth_indep _ 0 (r_x (start 0 0))) by (rewrite map_length; lia). rewrite map_nth. reflexivity.
Qed.
Print Assumptions C52_basis.

(** The spline as a function. *)
Definition splines (o : nat) (knots : list R) (params : nat -> R) (x : R) : R :=
  sum (o + length knots - 1) (fun k => params k * spline o knots k x).

Theorem C52_result o knots xs params : (2 <= length knots)%nat -> ascending knots ->
  baseResult (Z.of_nat o) knots xs params = Some (map (splines o knots params) xs).
Proof.
  intros H Up. destruct (C52_basis o knots xs H Up) as (rows & E & L & F). unfold baseResult. rewrite E. f_equal.
  apply (nth_ext _ _ 0 0); [rewrite !map_length; exact L|]. intros i Hi. rewrite map_length in Hi.
  set (g := fun r : nat -> R => _). rewrite (nth_indep _ 0 (g (fun _ => 0))) by (rewrite map_length; exact Hi). rewrite map_nth.
  rewrite (nth_indep (map _ xs) 0 (splines o knots params 0)) by (rewrite map_length; lia). rewrite map_nth.
  unfold g, splines. replace (Z.to_nat (npar (Z.of_nat o) knots)) with (o + length knots - 1)%nat by (unfold npar; lia).
  apply sum_ext. intros k Hkk. rewrite F by lia. reflexivity.
Qed.
Print Assumptions C52_result.

Lemma tele o knots m x : (S m <= length knots - 1)%nat ->
  sum (S m) (fun k => spline o knots (o + k) x) + (if (S m <? length knots - 1)%nat then tpow o knots (S m) x else 0) = x ^ o.
Proof.
  induction m as [|m IH]; intro H.
  - cbn [sum]. unfold spline. destruct (Nat.ltb_spec (o + 0) o); [lia|]. replace (o + 0 - o)%nat with 0%nat by lia.
    destruct (1 <? length knots - 1)%nat; unfold tpow at 1; cbn [Nat.eqb]; lra.
  - cbn [sum]. cbn [sum] in IH. specialize (IH ltac:(lia)). rewrite <- IH. destruct (Nat.ltb_spec (S m) (length knots - 1)); [|lia].
    unfold spline at 3. destruct (Nat.ltb_spec (o + S m) o); [lia|]. replace (o + S m - o)%nat with (S m) by lia.
    destruct (Nat.ltb_spec (S (S m)) (length knots - 1)); lra.
Qed.

(** Every polynomial up to the order is among the splines: take its coefficients, the last one for all the
    remaining parameters. *)
Theorem C52_polynomial o knots a xs : (2 <= length knots)%nat -> ascending knots ->
  baseResult (Z.of_nat o) knots xs (fun k => a (Nat.min k o)) = Some (map (fun x => sum (S o) (fun k => a k * x ^ k)) xs).
Proof.
  intros H Up. rewrite C52_result by assumption. f_equal. apply map_ext. intro x. unfold splines.
  replace (o + length knots - 1)%nat with (o + S (length knots - 2))%nat by lia. rewrite sum_app.
  replace (sum (S o) _) with (sum o (fun k => a k * x ^ k) + a o * x ^ o) by reflexivity. f_equal.
  - apply sum_ext. intros k Hkk. rewrite Nat.min_l by lia. unfold spline. destruct (Nat.ltb_spec k o); [reflexivity|lia].
  - rewrite <- (tele o knots (length knots - 2) x) by lia. destruct (Nat.ltb_spec (S (length knots - 2)) (length knots - 1)); [lia|].
    rewrite Rplus_0_r, <- sum_scal. apply sum_ext. intros k Hkk. rewrite Nat.min_r by lia. reflexivity.
Qed.
Print Assumptions C52_polynomial.

(** * Slopes *)
Definition plus (u : R) : R := if Rle_dec 0 u then u else 0.
Definition plusn (n : nat) (u : R) : R := if Rle_dec 0 u then u ^ n else 0.

Lemma plusn_S n u : (1 <= n)%nat -> plusn (S n) u = u * plusn n u.
Proof. intro H. unfold plusn. destruct (Rle_dec 0 u); cbn [pow]; lra. Qed.

Lemma plus2_derive (u : R) : is_derive (plusn 2) u (2 * plusn 1 u).
Proof.
  unfold plusn. destruct (Rtotal_order u 0) as [L|[->|L]].
  - apply (is_derive_ext_loc (fun _ => 0)).
    + exists (mkposreal (- u) ltac:(lra)). intros y B. unfold ball in B; cbn in B; unfold AbsRing_ball, abs, minus, Hierarchy.plus, opp in B; cbn in B.
      destruct (Rle_dec 0 y); [|reflexivity]. apply Rabs_def2 in B. lra.
    + destruct (Rle_dec 0 u); [lra|]. replace (2 * 0) with 0 by lra. apply (is_derive_const (K := R_AbsRing) 0 u).
  - destruct (Rle_dec 0 0); [|lra]. apply is_derive_Reals. intros e He. exists (mkposreal e He). intros h Hh Lh. cbn in Lh.
    destruct (Rle_dec 0 0); [|lra]. destruct (Rle_dec 0 (0 + h)).
    + replace (((0 + h) ^ 2 - 0 ^ 2) / h - 2 * 0 ^ 1) with h by (field; exact Hh). exact Lh.
    + replace ((0 - 0 ^ 2) / h - 2 * 0 ^ 1) with 0 by (field; exact Hh). rewrite Rabs_R0. exact He.
  - apply (is_derive_ext_loc (fun y => y ^ 2)).
    + exists (mkposreal u L). intros y B. unfold ball in B; cbn in B; unfold AbsRing_ball, abs, minus, Hierarchy.plus, opp in B; cbn in B.
      apply Rabs_def2 in B. destruct (Rle_dec 0 y); [reflexivity|lra].
    + destruct (Rle_dec 0 u); [|lra]. auto_derive; [exact I|ring].
Qed.

Lemma plusn_derive n : (2 <= n)%nat -> forall u : R, is_derive (plusn n) u (INR n * plusn (n - 1) u).
Proof.
  induction n as [|n IH]; intros H u; [lia|]. destruct (Nat.eq_dec n 1) as [->|N].
  - replace (INR 2) with 2 by (cbn; lra). apply plus2_derive.
  - apply (is_derive_ext (fun v : R => v * plusn n v)); [intro; symmetry; apply plusn_S; lia|].
    replace (INR (S n) * plusn (S n - 1) u) with (1 * plusn n u + u * (INR n * plusn (n - 1) u)).
    + apply (is_derive_mult (fun v : R => v) (plusn n) u 1 (INR n * plusn (n - 1) u)).
      * apply (is_derive_id (K := R_AbsRing) u).
      * apply IH. lia.
      * intros; apply Rmult_comm.
    + rewrite S_INR. replace (S n - 1)%nat with (S (n - 1)) by lia. rewrite (plusn_S (n - 1)) by lia.
      replace (plusn n u) with (u * plusn (n - 1) u) by (rewrite <- plusn_S by lia; f_equal; lia). ring.
Qed.

Lemma tpow_derive o knots j (x : R) : (2 <= o)%nat -> is_derive (tpow o knots j) x (INR o * tpow (o - 1) knots j x).
Proof.
  intro H. unfold tpow. destruct (Nat.eqb_spec j 0) as [->|N].
  - auto_derive; [exact I|]. rewrite <- Nat.sub_1_r. ring.
  - apply (is_derive_ext (fun t : R => plusn o (t - nth j knots 0))).
    + intro t. unfold plusn. destruct (Rle_dec (nth j knots 0) t), (Rle_dec 0 (t - nth j knots 0)); (reflexivity || lra).
    + replace (if Rle_dec (nth j knots 0) x then (x - nth j knots 0) ^ (o - 1) else 0) with (plusn (o - 1) (x - nth j knots 0)).
      2:{ unfold plusn. destruct (Rle_dec (nth j knots 0) x), (Rle_dec 0 (x - nth j knots 0)); (reflexivity || lra). }
      rewrite <- (Rmult_1_l (INR o * _)).
      apply (is_derive_comp (K := R_AbsRing) (V := R_NormedModule) (plusn o) (fun t : R => t - nth j knots 0) x).
      * apply plusn_derive. exact H.
      * auto_derive; [exact I|ring].
Qed.

Lemma spline_derive o knots k (x : R) : (2 <= o)%nat ->
  is_derive (spline o knots k) x (match k with O => 0 | S k => INR (Nat.min (S k) o) * spline (o - 1) knots k x end).
Proof.
  intro H. destruct k as [|k].
  - unfold spline. cbn [Nat.ltb Nat.leb]. destruct o as [|o]; [lia|]. cbn. auto_derive; [exact I|reflexivity].
  - unfold spline. replace (S k - o)%nat with (k - (o - 1))%nat by lia.
    destruct (Nat.ltb_spec (S k) o).
    + destruct (Nat.ltb_spec k (o - 1)); [|lia]. rewrite Nat.min_l by lia. auto_derive; [exact I|]. rewrite ?Rmult_1_l. reflexivity.
    + destruct (Nat.ltb_spec k (o - 1)); [lia|]. rewrite Nat.min_r by lia.
      destruct (S (k - (o - 1)) <? length knots - 1)%nat.
      * rewrite Rmult_minus_distr_l. apply (is_derive_minus (K := R_AbsRing) (V := R_NormedModule)); apply tpow_derive; exact H.
      * apply tpow_derive. exact H.
Qed.

Lemma sum_derive n (f : nat -> R -> R) (d : nat -> R) (x : R) : (forall k, (k < n)%nat -> is_derive (f k) x (d k)) ->
  is_derive (fun t => sum n (fun k => f k t)) x (sum n d).
Proof.
  induction n as [|n IH]; intro H; cbn [sum]; [apply (is_derive_const (K := R_AbsRing) 0 x)|].
  apply (is_derive_plus (K := R_AbsRing) (V := R_NormedModule)); [apply IH; auto|apply H; lia].
Qed.

(** The true slope of a spline of order two or more, everywhere. *)
Lemma splines_derive o knots params (x : R) : (2 <= o)%nat -> (2 <= length knots)%nat ->
  is_derive (splines o knots params) x (splines (o - 1) knots (fun k => params (S k) * INR (Nat.min (S k) o)) x).
Proof.
  intros Ho H. unfold splines.
  replace (sum (o - 1 + length knots - 1) _) with
    (sum (o + length knots - 1) (fun k => params k * match k with O => 0 | S k => INR (Nat.min (S k) o) * spline (o - 1) knots k x end)).
  - apply sum_derive. intros k _. apply (is_derive_scal (spline o knots k) x (params k)). apply spline_derive. exact Ho.
  - replace (o + length knots - 1)%nat with (1 + (o - 1 + length knots - 1))%nat by lia. rewrite sum_app. cbn [sum Nat.add].
    rewrite Rmult_0_r, !Rplus_0_l. apply sum_ext. intros k _. cbn. ring.
Qed.

Lemma derivative_eq o knots xs params : (1 <= o)%nat -> (2 <= length knots)%nat -> ascending knots ->
  baseDerivative (Z.of_nat o) knots xs params = Some (map (splines (o - 1) knots (fun k => params (S k) * factor (Z.of_nat o) (S k))) xs).
Proof. intros Ho H Up. unfold baseDerivative. replace (Z.of_nat o - 1)%Z with (Z.of_nat (o - 1)) by lia. apply C52_result; assumption. Qed.

(** Order 3: the derivative is the slope, at all points. *)
Theorem C52_derivative knots xs params : (2 <= length knots)%nat -> ascending knots ->
  exists d, baseDerivative 3 knots xs params = Some d /\ length d = length xs /\
    forall i, (i < length xs)%nat -> forall f, (forall t, baseResult 3 knots [t] params = Some [f t]) -> is_derive f (nth i xs 0) (nth i d 0).
Proof.
  intros H Up. pose proof (derivative_eq 3 knots xs params ltac:(lia) H Up) as E. cbn [Z.of_nat Pos.of_succ_nat Pos.succ] in E. rewrite E.
  eexists. split; [reflexivity|]. split; [apply map_length|]. intros i Hi f F.
  set (g := splines _ _ _). rewrite (nth_indep (map g xs) 0 (g 0)) by (rewrite map_length; exact Hi). rewrite map_nth.
  apply (is_derive_ext (splines 3 knots params)).
  - intro t. pose proof (C52_result 3 knots [t] params H Up) as Q. cbn [Z.of_nat Pos.of_succ_nat Pos.succ] in Q. rewrite F in Q. cbn [map] in Q. congruence.
  - replace (g (nth i xs 0)) with (splines (3 - 1) knots (fun k => params (S k) * INR (Nat.min (S k) 3)) (nth i xs 0)); [apply splines_derive; lia|].
    unfold g, splines. apply sum_ext. intros k _. f_equal. f_equal. unfold factor. destruct (Z.leb_spec (Z.of_nat (S k)) 3).
    + rewrite Nat.min_l by lia. reflexivity.
    + rewrite Nat.min_r by lia. cbn. lra.
Qed.
Print Assumptions C52_derivative.

(** Two knots, a polynomial: the derivative is the slope for all orders. *)
Theorem C52_two_knots o k0 k1 xs params : (2 <= o)%nat -> k0 <= k1 ->
  exists d, baseDerivative (Z.of_nat o) [k0; k1] xs params = Some d /\ length d = length xs /\
    forall i, (i < length xs)%nat -> forall f, (forall t, baseResult (Z.of_nat o) [k0; k1] [t] params = Some [f t]) -> is_derive f (nth i xs 0) (nth i d 0).
Proof.
  intros Ho K. assert (Up : ascending [k0; k1]) by (intros [|[|i]] [|[|j]]; cbn; intros; lra || lia).
  rewrite derivative_eq by (cbn; lia || assumption). eexists. split; [reflexivity|]. split; [apply map_length|]. intros i Hi f F.
  set (g := splines _ _ _). rewrite (nth_indep (map g xs) 0 (g 0)) by (rewrite map_length; exact Hi). rewrite map_nth.
  apply (is_derive_ext (splines o [k0; k1] params)).
  - intro t. pose proof (C52_result o [k0; k1] [t] params ltac:(cbn; lia) Up) as Q. rewrite F in Q. cbn [map] in Q. congruence.
  - replace (g (nth i xs 0)) with (splines (o - 1) [k0; k1] (fun k => params (S k) * INR (Nat.min (S k) o)) (nth i xs 0)); [apply splines_derive; cbn; lia|].
    unfold g, splines. apply sum_ext. intros k Hkk. cbn [length] in Hkk. f_equal. f_equal. unfold factor.
    destruct (Z.leb_spec (Z.of_nat (S k)) (Z.of_nat o)); [|lia]. rewrite Nat.min_l by lia. reflexivity.
Qed.
Print Assumptions C52_two_knots.

(** Any other order, with more than two knots: at one beyond the last internal knot the slope of the last
    spline is the order, the derivative gives 3. *)
Theorem C52_derivative_refuted o knots : (2 <= o)%nat -> o <> 3%nat -> (3 <= length knots)%nat -> ascending knots ->
  exists x params f d, (forall t, baseResult (Z.of_nat o) knots [t] params = Some [f t]) /\
    baseDerivative (Z.of_nat o) knots [x] params = Some [d] /\ ~ is_derive f x d.
Proof.
  intros Ho N3 H Up. set (m := (length knots - 2)%nat). set (x := nth m knots 0 + 1).
  set (params := fun k => if (k =? o + m)%nat then 1 else 0).
  assert (S1 : forall q, (1 <= q)%nat -> spline q knots (q + m) x = 1).
  { intros q Hq. rewrite spline_last by (unfold m; lia). unfold tpow. destruct (Nat.eqb_spec m 0); [unfold m in *; lia|].
    unfold x. destruct (Rle_dec _ _); [|lra]. replace (nth m knots 0 + 1 - nth m knots 0) with 1 by ring. apply pow1. }
  exists x, params, (splines o knots params), 3. split; [intro t; apply C52_result; lia || assumption|]. split.
  - rewrite derivative_eq by (lia || assumption). cbn [map]. f_equal. f_equal. unfold splines.
    rewrite (sum_one _ (o - 1 + m)).
    + unfold params. replace (S (o - 1 + m)) with (o + m)%nat by lia. rewrite Nat.eqb_refl, S1 by lia.
      unfold factor. destruct (Z.leb_spec (Z.of_nat (o + m)) (Z.of_nat o)); [unfold m in *; lia|lra].
    + unfold m. lia.
    + intros i Hi Ni. unfold params. destruct (Nat.eqb_spec (S i) (o + m)); [lia|lra].
  - intro D. pose proof (splines_derive o knots params x Ho ltac:(lia)) as D2.
    apply is_derive_unique in D. apply is_derive_unique in D2. rewrite D in D2. revert D2. unfold splines. rewrite (sum_one _ (o - 1 + m)).
    + unfold params. replace (S (o - 1 + m)) with (o + m)%nat by lia. rewrite Nat.eqb_refl, S1, Nat.min_r by lia.
      intro E. apply N3. apply INR_eq. cbn. lra.
    + unfold m. lia.
    + intros i Hi Ni. unfold params. destruct (Nat.eqb_spec (S i) (o + m)); [lia|lra].
Qed.
Print Assumptions C52_derivative_refuted.

(** Order 0, a histogram: the slope is 0 inside the bins, the derivative is not. *)
Theorem C52_histogram_refuted : exists knots x params f d, ascending knots /\ length knots = 3%nat /\
  (forall t, baseResult 0 knots [t] params = Some [f t]) /\ is_derive f x 0 /\ baseDerivative 0 knots [x] params = Some [d] /\ d <> 0.
Proof.
  set (knots := [0; 1; 2]). set (params := fun _ : nat => 1).
  assert (Up : ascending knots) by (intros [|[|[|i]]] [|[|[|j]]]; cbn; intros; lra || lia).
  exists knots, (3/2), params, (splines 0 knots params), 3. split; [exact Up|]. split; [reflexivity|]. split; [|split; [|split]].
  - intro t. apply (C52_result 0 knots [t] params); [cbn; lia|exact Up].
  - apply (is_derive_ext (fun _ => 1)); [|apply (is_derive_const (K := R_AbsRing) 1 (3/2))].
    intro t. unfold splines, knots, params, spline, tpow. cbn. destruct (Rle_dec 1 t); lra.
  - unfold baseDerivative, baseResult, basePartial, npar, knots. cbn -[Rle_dec]. replace (Pos.to_nat 1) with 1%nat by reflexivity.
    cbn -[Rle_dec]. unfold start, fill, past, knot. cbn -[Rle_dec]. unfold past. cbn -[Rle_dec].
    destruct (Rle_dec 1 (3/2)); [|lra]. cbn. f_equal. f_equal. unfold params, factor, put. cbn. lra.
  - lra.
Qed.
Print Assumptions C52_histogram_refuted.

(** Order 1, connected lines: the slope of the second line is 1, the derivative is 3. *)
Theorem C52_lines_refuted : exists knots x params f d, ascending knots /\ length knots = 3%nat /\
  (forall t, baseResult 1 knots [t] params = Some [f t]) /\ is_derive f x 1 /\ baseDerivative 1 knots [x] params = Some [d] /\ d = 3.
Proof.
  set (knots := [0; 1; 2]). set (params := fun k : nat => if (k =? 2)%nat then 1 else 0).
  assert (Up : ascending knots) by (intros [|[|[|i]]] [|[|[|j]]]; cbn; intros; lra || lia).
  exists knots, (3/2), params, (splines 1 knots params), 3. split; [exact Up|]. split; [reflexivity|]. split; [|split; [|split]].
  - intro t. apply (C52_result 1 knots [t] params); [cbn; lia|exact Up].
  - apply (is_derive_ext_loc (fun t => t - 1)).
    + exists (mkposreal (1/2) ltac:(lra)). intros y B. unfold ball in B; cbn in B; unfold AbsRing_ball, abs, minus, Hierarchy.plus, opp in B; cbn in B.
      apply Rabs_def2 in B. unfold splines, knots, params, spline, tpow. cbn. destruct (Rle_dec 1 y); lra.
    + auto_derive; [exact I|ring].
  - change 1%Z with (Z.of_nat 1). rewrite derivative_eq; [|lia|cbn; lia|exact Up]. cbn [map]. f_equal. f_equal.
    unfold splines, knots, params, spline, tpow, factor. cbn. destruct (Rle_dec 1 (3/2)); lra.
  - reflexivity.
Qed.
Print Assumptions C52_lines_refuted.

Lemma tpow1_cont knots j (x : R) : continuous (tpow 1 knots j) x.
Proof.
  apply (continuous_ext (fun t => if (j =? 0)%nat then t else (t - nth j knots 0 + Rabs (t - nth j knots 0)) / 2)).
  - intro t. unfold tpow. destruct (j =? 0)%nat; [cbn; lra|]. destruct (Rle_dec (nth j knots 0) t).
    + rewrite Rabs_right by lra. cbn. lra.
    + rewrite Rabs_left by lra. lra.
  - destruct (j =? 0)%nat; [apply continuous_id|].
    apply (continuous_comp (fun t => t - nth j knots 0) (fun u => (u + Rabs u) / 2)).
    + apply continuity_pt_filterlim. reg.
    + apply continuity_pt_filterlim. reg.
Qed.

Lemma splines1_cont knots params (x : R) : continuous (splines 1 knots params) x.
Proof.
  unfold splines. induction (1 + length knots - 1)%nat as [|n IH]; cbn [sum]; [apply continuous_const|].
  apply (continuous_plus (V := R_NormedModule)); [exact IH|]. apply (continuous_scal_r (V := R_NormedModule) (params n)).
  unfold spline. destruct (n <? 1)%nat.
  - apply continuity_pt_filterlim. reg.
  - destruct (_ <? _)%nat; [apply (continuous_minus (V := R_NormedModule)); apply tpow1_cont|apply tpow1_cont].
Qed.

Lemma derive_shift (f g : R -> R) : (forall x, is_derive f x (g x)) -> forall d x, Derive_n f (S d) x = Derive_n g d x.
Proof.
  intros H d. induction d as [|d IH]; intro x.
  - cbn. apply is_derive_unique. apply H.
  - cbn [Derive_n]. apply Derive_ext. intro t. apply (IH t).
Qed.

Lemma smooth d : forall knots params, (2 <= length knots)%nat -> forall x : R,
  ex_derive_n (splines (S d) knots params) d x /\ continuous (Derive_n (splines (S d) knots params) d) x.
Proof.
  induction d as [|d IH]; intros knots params H x.
  - split; [exact I|]. apply splines1_cont.
  - set (g := splines (S d) knots (fun k => params (S k) * INR (Nat.min (S k) (S (S d))))).
    assert (D : forall t, is_derive (splines (S (S d)) knots params) t (g t)).
    { intro t. unfold g. pose proof (splines_derive (S (S d)) knots params t ltac:(lia) H) as Q. replace (S (S d) - 1)%nat with (S d) in Q by lia. exact Q. }
    pose proof (derive_shift _ g D) as E. destruct (IH knots (fun k => params (S k) * INR (Nat.min (S k) (S (S d)))) H x) as (A & B). fold g in A, B. split.
    + destruct d as [|d].
      * exists (g x). apply D.
      * cbn [ex_derive_n] in A |- *. apply (ex_derive_ext (Derive_n g d)); [intro t; symmetry; apply (E d t)|exact A].
    + apply (continuous_ext (Derive_n g d)); [intro t; symmetry; apply (E d t)|exact B].
Qed.

(** A spline of order o is o-1 times continuously differentiable, at the knots too. *)
Theorem C52_smooth o knots params f : (1 <= o)%nat -> (2 <= length knots)%nat -> ascending knots ->
  (forall t, baseResult (Z.of_nat o) knots [t] params = Some [f t]) -> forall x : R,
  ex_derive_n f (o - 1) x /\ continuous (Derive_n f (o - 1)) x.
Proof.
  intros Ho H Up F x.
  assert (E : forall t, splines o knots params t = f t).
  { intro t. pose proof (C52_result o knots [t] params H Up) as Q. rewrite F in Q. cbn [map] in Q. congruence. }
  destruct o as [|d]; [lia|]. replace (S d - 1)%nat with d by lia. destruct (smooth d knots params H x) as (A & B). split.
  - apply (ex_derive_n_ext (splines (S d) knots params)); assumption.
  - apply (continuous_ext (Derive_n (splines (S d) knots params) d)); [intro t; apply Derive_n_ext; exact E|exact B].
Qed.
Print Assumptions C52_smooth.

(** Four knots, order 3, six parameters: at 3/2 the columns are 1, x, x^2, x^3-(x-1)^3, (x-1)^3, 0. *)
Example C52_example : ascending [0; 1; 2; 3] /\ npar 3 [0; 1; 2; 3] = 6%Z /\
  exists row, basePartial 3 [0; 1; 2; 3] [3/2] = Some [row] /\ map row (seq 0 6) = [1; 3/2; 9/4; 27/8 - 1/8; 1/8; 0].
Proof.
  assert (Up : ascending [0; 1; 2; 3]) by (intros [|[|[|[|i]]]] [|[|[|[|j]]]]; cbn; intros; lra || lia).
  split; [exact Up|]. split; [reflexivity|].
  destruct (C52_basis 3 [0; 1; 2; 3] [3/2] ltac:(cbn; lia) Up) as (rows & E & L & F). destruct rows as [|row [|]]; try discriminate L.
  exists row. split; [exact E|]. specialize (F 0%nat). cbn [nth length] in F. cbn [map seq]. rewrite !F by lia.
  unfold spline, tpow. cbn -[Rle_dec pow]. destruct (Rle_dec 1 (3/2)); [|lra]. destruct (Rle_dec 2 (3/2)); [lra|].
  repeat (apply f_equal2; [cbn; lra|]). reflexivity.
Qed.
