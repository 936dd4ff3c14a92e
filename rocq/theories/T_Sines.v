(** C63: sines with a varying amplitude or frequency. *)
From Coquelicot Require Import Coquelicot.
From Coq Require Import List Arith ZArith Reals Bool Lia Lra Psatz.
From Verif Require Import L_Sum M_Splines T_Splines M_Sines.
Import ListNotations.
Local Open Scope R_scope.
Set Default Proof Using "Type".

(** Replace parameter k. *)
Definition upd (k : nat) (t : R) (p : list R) : list R := firstn k p ++ t :: skipn (S k) p.
Lemma par_upd k t p i : (k < length p)%nat -> par (upd k t p) i = if (i =? k)%nat then t else par p i.
Proof.
  unfold par, upd. revert k i. induction p as [|a p IH]; intros [|k] [|i] H; cbn in *; try lia; try reflexivity.
  apply IH. lia.
Qed.
Lemma upd_length k t p : (k < length p)%nat -> length (upd k t p) = length p.
Proof. intro H. unfold upd. rewrite app_length, firstn_length. cbn [length]. rewrite skipn_length. lia. Qed.

Lemma linear_derive np params row k : (k < np)%nat -> length params = np ->
  is_derive (fun t : R => linear np (upd k t params) row) (par params k) (row k).
Proof.
  intros Hk L. unfold linear.
  assert (E : row k = sum np (fun i => if (i =? k)%nat then row i else 0)).
  { rewrite (sum_one np k); [rewrite Nat.eqb_refl; reflexivity|exact Hk|]. intros i _ D. destruct (Nat.eqb_spec i k); [contradiction|reflexivity]. }
  rewrite E. apply (sum_derive np (fun i t => par (upd k t params) i * row i)). intros i Hi.
  apply (is_derive_ext (fun t : R => (if (i =? k)%nat then t else par params i) * row i)).
  { intro t. rewrite par_upd by lia. reflexivity. }
  destruct (i =? k)%nat; auto_derive; trivial; ring.
Qed.

Lemma powers_pow x k : powers x k = x ^ k.
Proof. induction k as [|k IH]; cbn; [reflexivity|rewrite IH; ring]. Qed.
Lemma times_pow a y k : times a y k = a * y ^ k.
Proof. induction k as [|k IH]; cbn; [ring|rewrite IH; ring]. Qed.

(** The polynomial with coefficients c *)
Definition polynomial (n : nat) (c : nat -> R) (y : R) : R := sum n (fun k => c k * y ^ k).

Lemma poly_result n x p : polyResult n x p = polynomial n (par p) x.
Proof. unfold polyResult, linear, polynomial. apply sum_ext. intros. rewrite powers_pow. reflexivity. Qed.

Lemma par_bcast a b k : length a = length b -> (k < length a)%nat -> match bcast a b with Some p => par p k = par a k * par b k /\ length p = length a | None => False end.
Proof.
  intros E H. unfold bcast. rewrite E, Nat.eqb_refl. split.
  - unfold par. revert b k E H. induction a as [|x a IH]; intros [|y b] [|k] E H; cbn in *; try lia; [reflexivity|]. apply IH; lia.
  - rewrite map_length, combine_length, E. lia.
Qed.

Lemma poly_derivative n x p : length p = n -> exists d, polyDerivative n x p = Some d /\ is_derive (polynomial n (par p)) x d.
Proof.
  intro L. unfold polyDerivative. destruct (Nat.leb_spec n 1) as [H|H].
  - exists 0. split; [reflexivity|]. unfold polynomial. destruct n as [|[|n]]; [|  |lia].
    + cbn [sum]. apply @is_derive_const.
    + cbn [sum pow]. apply (is_derive_ext (fun _ : R => par p 0)); [intro; cbn; ring|]. apply @is_derive_const.
  - assert (Ls : length (map INR (seq 0 n)) = n) by (rewrite map_length, seq_length; reflexivity).
    destruct (bcast p (map INR (seq 0 n))) as [q|] eqn:E.
    2:{ exfalso. pose proof (par_bcast p (map INR (seq 0 n)) 0 ltac:(lia) ltac:(lia)) as Q. rewrite E in Q. exact Q. }
    assert (Pk : forall k, (k < n)%nat -> par q k = par p k * INR k).
    { intros k Hk. pose proof (par_bcast p (map INR (seq 0 n)) k ltac:(lia) ltac:(lia)) as Q. rewrite E in Q. destruct Q as (Q & _). rewrite Q. f_equal.
      unfold par. change 0 with (INR 0) at 1. rewrite map_nth, seq_nth by lia. reflexivity. }
    exists (polyResult (n - 1) x (tl q)). split; [reflexivity|]. rewrite poly_result. unfold polynomial.
    destruct n as [|m]; [lia|]. replace (S m - 1)%nat with m by lia.
    assert (S0 : sum m (fun k => par (tl q) k * x ^ k) = sum (S m) (fun k => par p k * (INR k * x ^ pred k))).
    { transitivity (0 + sum m (fun k => par p (S k) * (INR (S k) * x ^ k))).
      - rewrite Rplus_0_l. apply sum_ext. intros k Hk. replace (par (tl q) k) with (par q (S k)) by (unfold par; destruct q; [destruct k|]; reflexivity).
        rewrite Pk by lia. ring.
      - clear. induction m as [|m IH]; cbn [sum] in *; [cbn; ring|]. rewrite <- Rplus_assoc, IH. reflexivity. }
    rewrite S0. apply (sum_derive (S m) (fun k y => par p k * y ^ k)). intros k _. apply is_derive_scal.
    auto_derive; [trivial|]. ring.
Qed.

(** ** PolySineAmp *)
Section PSA.
  Context (degree : nat) (frequency : R).

  Definition psaSpec (params : list R) (x y : R) : R :=
    polynomial (degree + 1) (par params) y * cos (2 * PI * frequency * x)
    + polynomial (degree + 1) (fun k => par params (degree + 1 + k)) y * sin (2 * PI * frequency * x).

  Lemma psa_result x y params : psaResult degree frequency x y params = psaSpec params x y.
  Proof.
    unfold psaResult, linear, psaSpec, polynomial. replace (2 * degree + 2)%nat with ((degree + 1) + (degree + 1))%nat by lia. rewrite sum_app, <- !sum_scal_r.
    f_equal; apply sum_ext; intros k Hk; unfold psaPartial.
    - destruct (Nat.ltb_spec k (degree + 1)); [|lia]. rewrite times_pow. ring.
    - destruct (Nat.ltb_spec (degree + 1 + k) (degree + 1)); [lia|]. replace (degree + 1 + k - (degree + 1))%nat with k by lia. rewrite times_pow. ring.
  Qed.
End PSA.

(** Two polynomials in y, one times the cosine, the other times the sine; partials to the parameters; slopes in x and y. *)
Theorem C63_poly degree frequency x y params : length params = (2 * degree + 2)%nat ->
  psaResult degree frequency x y params = psaSpec degree frequency params x y /\
  (forall k, (k < 2 * degree + 2)%nat ->
     is_derive (fun t : R => psaResult degree frequency x y (upd k t params)) (par params k) (psaPartial degree frequency x y k)) /\
  exists dx dy, psaDerivative degree frequency x y params = Some (dx, dy) /\
    is_derive (fun t : R => psaResult degree frequency t y params) x dx /\
    is_derive (fun t : R => psaResult degree frequency x t params) y dy.
Proof.
  intro L. split; [apply psa_result|]. split.
  - intros k Hk. apply linear_derive; assumption.
  - set (np := (degree + 1)%nat). unfold psaDerivative. fold np.
    assert (L1 : length (firstn np params) = np) by (rewrite firstn_length; lia).
    assert (L2 : length (skipn np params) = np) by (rewrite skipn_length; lia).
    destruct (poly_derivative np y (firstn np params) L1) as (dc & -> & Dc). destruct (poly_derivative np y (skipn np params) L2) as (ds & -> & Ds).
    assert (P1 : forall t, polynomial np (par (firstn np params)) t = polynomial np (par params) t).
    { intro t. apply sum_ext. intros k Hk. f_equal. unfold par. rewrite <- (firstn_skipn np params) at 2. rewrite app_nth1 by lia. reflexivity. }
    assert (P2 : forall t, polynomial np (par (skipn np params)) t = polynomial np (fun k => par params (np + k)) t).
    { intro t. apply sum_ext. intros k Hk. f_equal. unfold par. rewrite <- (firstn_skipn np params) at 2. rewrite app_nth2 by lia. rewrite L1. f_equal. lia. }
    eexists _, _. split; [reflexivity|]. rewrite !poly_result, P1, P2. split.
    + apply (is_derive_ext (fun t : R => psaSpec degree frequency params t y)); [intro; symmetry; apply psa_result|]. unfold psaSpec. fold np.
      set (p := polynomial _ _ _). set (q := polynomial _ _ _). auto_derive; [trivial|]. ring.
    + apply (is_derive_ext (fun t : R => psaSpec degree frequency params x t)); [intro; symmetry; apply psa_result|]. unfold psaSpec. fold np.
      apply @is_derive_plus.
      * apply (is_derive_ext (fun t : R => cos (2 * PI * frequency * x) * polynomial np (par params) t)); [intro; apply Rmult_comm|].
        rewrite (Rmult_comm dc). apply is_derive_scal. apply (is_derive_ext _ _ _ _ P1 Dc).
      * apply (is_derive_ext (fun t : R => sin (2 * PI * frequency * x) * polynomial np (fun k => par params (np + k)) t)); [intro; apply Rmult_comm|].
        rewrite (Rmult_comm ds). apply is_derive_scal. apply (is_derive_ext _ _ _ _ P2 Ds).
Qed.
Print Assumptions C63_poly.

(** The units: when y is measured in another unit the partial changes with the power that the unit of the parameter says. *)
Theorem C63_poly_unit degree frequency x y c k : (k < 2 * degree + 2)%nat ->
  psaPartial degree frequency x (c * y) k = c ^ psaUnit degree k * psaPartial degree frequency x y k.
Proof.
  intro H. unfold psaPartial, psaUnit. destruct (Nat.ltb_spec k (degree + 1)) as [L|L]; rewrite !times_pow, Rpow_mult_distr.
  - rewrite Nat.mod_small by lia. ring.
  - replace (k mod (degree + 1))%nat with (k - (degree + 1))%nat; [ring|]. 
    replace k with ((k - (degree + 1)) + 1 * (degree + 1))%nat at 2 by lia. rewrite Nat.mod_add, Nat.mod_small by lia. reflexivity.
Qed.
Print Assumptions C63_poly_unit.

(** The name of the model says y^(np+k) for the terms with the sine, from the third on; it is y^k. *)
Theorem C63_poly_name_refuted : exists degree frequency n e, In (n, e) (snd (psaName degree)) /\
  exists x y, psaPartial degree frequency x y n <> sin (2 * PI * frequency * x) * y ^ e.
Proof.
  exists 2%nat, 1, 5%nat, 5%nat. split; [cbn; tauto|]. exists (1/4), 2. unfold psaPartial. cbn [Nat.add Nat.ltb Nat.leb Nat.sub]. rewrite times_pow.
  replace (2 * PI * 1 * (1 / 4)) with (PI / 2) by field. rewrite sin_PI2. lra.
Qed.
Print Assumptions C63_poly_name_refuted.

Lemma par_firstn n p k : (k < n)%nat -> par (firstn n p) k = par p k.
Proof. unfold par. revert n k. induction p as [|a p IH]; intros [|n] [|k] H; cbn; try lia; try reflexivity. apply IH. lia. Qed.
Lemma par_skipn n p k : par (skipn n p) k = par p (n + k).
Proof. unfold par. revert n. induction p as [|a p IH]; intros [|n]; cbn; try reflexivity; [destruct k; reflexivity|]. apply IH. Qed.

Lemma nth_combine_map {A B} (f : R -> A -> B) (d : B) (xs : list R) (rows : list A) a i : length rows = length xs -> (i < length xs)%nat ->
  nth i (map (fun xr => f (fst xr) (snd xr)) (combine xs rows)) d = f (nth i xs 0) (nth i rows a).
Proof.
  revert rows i. induction xs as [|x xs IH]; intros [|r rows] [|i] L H; cbn in *; try lia; [reflexivity|]. apply IH; lia.
Qed.

(** ** SineSpline *)
Section SineSpline.
  Context (o : nat) (knots : list R) (Two : (2 <= length knots)%nat) (Up : ascending knots).
  Notation nh := (o + length knots - 1)%nat.

  Lemma spl_result xs params : (nh <= length params)%nat -> splResult (Z.of_nat o) knots xs params = Some (map (splines o knots (par params)) xs).
  Proof using Two Up.
    intro L. unfold splResult. replace (Z.to_nat (npar (Z.of_nat o) knots)) with nh by (unfold npar; lia).
    destruct (Nat.ltb_spec (length params) nh); [lia|]. apply C52_result; assumption.
  Qed.
  Lemma spl_ext f g x : (forall k, (k < nh)%nat -> f k = g k) -> splines o knots f x = splines o knots g x.
  Proof. intro H. apply sum_ext. intros k Hk. rewrite H by exact Hk. reflexivity. Qed.
  (** The amplitudes *)
  Definition amp0 (params : list R) (x : R) : R := splines o knots (par params) x.
  Definition amp1 (params : list R) (x : R) : R := splines o knots (fun k => par params (nh + k)) x.
End SineSpline.

(** A spline times the cosine and another spline times the sine, and the partials to the parameters. *)
Theorem C63_spline frequency o knots xs params : (2 <= length knots)%nat -> ascending knots ->
  let np := (2 * (o + length knots - 1))%nat in length params = np ->
  ssResult frequency o knots xs params =
    Some (map (fun x => amp0 o knots params x * cos (2 * PI * frequency * x) + amp1 o knots params x * sin (2 * PI * frequency * x)) xs) /\
  ssAmps o knots xs params = Some (map (amp0 o knots params) xs, map (amp1 o knots params) xs) /\
  exists rows, ssPartial frequency o knots xs = Some rows /\ length rows = length xs /\
    forall i k, (i < length xs)%nat -> (k < np)%nat ->
      is_derive (fun t : R => match ssResult frequency o knots xs (upd k t params) with Some res => nth i res 0 | None => 0 end)
        (par params k) (nth i rows (fun _ => 0) k).
Proof.
  intros Two Up np L. unfold np in L. set (nh := (o + length knots - 1)%nat) in *.
  destruct (C52_basis o knots xs Two Up) as (rows & E & Lr & V).
  assert (PE : ssPartial frequency o knots xs = Some (map (fun xr => ssRow frequency o knots (fst xr) (snd xr)) (combine xs rows))) by (unfold ssPartial; rewrite E; reflexivity).
  set (prow := map (fun xr => ssRow frequency o knots (fst xr) (snd xr)) (combine xs rows)) in *.
  assert (Lp : length prow = length xs) by (unfold prow; rewrite map_length, combine_length; lia).
  split; [|split].
  - unfold ssResult. rewrite PE. f_equal. apply (nth_ext _ _ 0 0); [rewrite !map_length; exact Lp|]. intros i Hi. rewrite map_length, Lp in Hi.
    rewrite (nth_indep _ 0 (linear (2 * (o + length knots - 1)) params (fun _ => 0))) by (rewrite map_length; lia). rewrite map_nth.
    set (g := fun x : R => _ + _). rewrite (nth_indep (map g xs) 0 (g 0)) by (rewrite map_length; exact Hi). rewrite map_nth. unfold g. clear g.
    unfold prow. rewrite (nth_combine_map (ssRow frequency o knots) _ xs rows (fun _ => 0)) by (assumption || lia).
    set (x := nth i xs 0). unfold linear. fold nh. replace (2 * nh)%nat with (nh + nh)%nat by lia. rewrite sum_app.
    unfold amp0, amp1, splines. fold nh. rewrite <- !sum_scal_r. f_equal; apply sum_ext; intros k Hk; unfold ssRow; fold nh.
    + destruct (Nat.ltb_spec k nh); [|lia]. rewrite V by lia. fold x. ring.
    + destruct (Nat.ltb_spec (nh + k) nh); [lia|]. replace (nh + k - nh)%nat with k by lia. rewrite V by lia. fold x. ring.
  - unfold ssAmps. fold nh. rewrite !spl_result by (try assumption; rewrite ?firstn_length, ?skipn_length; fold nh; lia). f_equal. f_equal; apply map_ext; intro x; apply spl_ext; intros k Hk.
    + apply par_firstn. exact Hk.
    + apply par_skipn.
  - exists prow. split; [exact PE|]. split; [exact Lp|]. intros i k Hi Hk. unfold np in Hk.
    apply (is_derive_ext (fun t : R => linear (2 * nh) (upd k t params) (nth i prow (fun _ => 0)))).
    { intro t. unfold ssResult. rewrite PE. fold nh.
      rewrite (nth_indep _ 0 (linear (2 * nh) (upd k t params) (fun _ => 0))) by (rewrite map_length; lia). rewrite map_nth. reflexivity. }
    apply linear_derive; assumption.
Qed.
Print Assumptions C63_spline.

Lemma spl_derivative_none o knots xs params : (2 <= length knots)%nat -> (2 <= o + length knots - 1)%nat -> length params <> (o + length knots - 1)%nat -> length params <> 1%nat ->
  splDerivative o knots xs params = None.
Proof.
  intros K H D D1. unfold splDerivative. unfold bcast.
  assert (L : length (map INR (seq 0 (o + 1)) ++ repeat 3 (o + length knots - 1 - o - 1)) = (o + length knots - 1)%nat).
  { rewrite app_length, map_length, seq_length, repeat_length. lia. }
  rewrite L. destruct (Nat.eqb_spec (length params) (o + length knots - 1)); [contradiction|].
  destruct (Nat.eqb_spec (o + length knots - 1) 1); [lia|]. destruct (Nat.eqb_spec (length params) 1); [lia|reflexivity].
Qed.

(** There is never a derivative: the splines are handed all parameters, which is twice as many as they have; numpy raises an error. *)
Theorem C63_spline_derivative_refuted frequency o knots xs params : (2 <= length knots)%nat -> (2 <= o + length knots - 1)%nat ->
  length params = (2 * (o + length knots - 1))%nat -> ssDerivative frequency o knots xs params = None.
Proof.
  intros K H L. unfold ssDerivative. destruct (ssAmps o knots xs params) as [(a & c)|]; [|reflexivity].
  rewrite spl_derivative_none by lia. reflexivity.
Qed.
Print Assumptions C63_spline_derivative_refuted.

Lemma tpow_scale o knots j x c : 0 < c -> (j < length knots)%nat -> tpow o (map (Rmult c) knots) j (c * x) = c ^ o * tpow o knots j x.
Proof.
  intros C Hj. unfold tpow. destruct (j =? 0)%nat; [apply Rpow_mult_distr|].
  rewrite (nth_indep _ 0 (c * 0)) by (rewrite map_length; exact Hj). rewrite map_nth.
  destruct (Rle_dec (nth j knots 0) x), (Rle_dec (c * nth j knots 0) (c * x)).
  - rewrite <- Rmult_minus_distr_l. apply Rpow_mult_distr.
  - exfalso. apply n. apply Rmult_le_compat_l; lra.
  - exfalso. apply n. apply Rmult_le_reg_l with c; assumption.
  - ring.
Qed.

(** The units of the parameters agree with a change of the unit of x: knots, x and the period all c times as large. *)
Theorem C63_spline_unit frequency o knots xs c : (2 <= length knots)%nat -> ascending knots -> 0 < c ->
  exists rows rows', ssPartial frequency o knots xs = Some rows /\ ssPartial (frequency / c) o (map (Rmult c) knots) (map (Rmult c) xs) = Some rows' /\
    forall i k, (i < length xs)%nat -> (k < 2 * (o + length knots - 1))%nat ->
      nth i rows' (fun _ => 0) k = c ^ ssUnit o knots k * nth i rows (fun _ => 0) k.
Proof.
  intros Two Up C. assert (Up' : ascending (map (Rmult c) knots)).
  { intros i j H. rewrite map_length in H. rewrite !(nth_indep (map _ _) 0 (c * 0)) by (rewrite map_length; lia). rewrite !map_nth. apply Rmult_le_compat_l; [lra|apply Up, H]. }
  destruct (C52_basis o knots xs Two Up) as (r1 & E1 & L1 & V1).
  destruct (C52_basis o (map (Rmult c) knots) (map (Rmult c) xs) ltac:(rewrite map_length; lia) Up') as (r2 & E2 & L2 & V2). rewrite !map_length in L2, V2.
  unfold ssPartial. rewrite E1, E2. eexists _, _. split; [reflexivity|]. split; [reflexivity|]. intros i k Hi Hk.
  rewrite (nth_combine_map (ssRow frequency o knots) _ xs r1 (fun _ => 0)) by assumption.
  rewrite (nth_combine_map (ssRow (frequency / c) o (map (Rmult c) knots)) _ (map (Rmult c) xs) r2 (fun _ => 0)) by (rewrite map_length; assumption).
  rewrite (nth_indep (map (Rmult c) xs) 0 (c * 0)) by (rewrite map_length; exact Hi). rewrite map_nth. set (x := nth i xs 0) in *.
  assert (Sc : forall l, (l < o + length knots - 1)%nat -> nth i r2 (fun _ => 0) l = c ^ (if (o <? l)%nat then o else l) * nth i r1 (fun _ => 0) l).
  { intros l Hl. rewrite V1, V2 by (rewrite ?map_length; assumption). rewrite (nth_indep (map (Rmult c) xs) 0 (c * 0)) by (rewrite map_length; exact Hi). rewrite map_nth. fold x.
    unfold spline. rewrite map_length. destruct (Nat.ltb_spec l o).
    - destruct (Nat.ltb_spec o l); [lia|]. apply Rpow_mult_distr.
    - replace (if (o <? l)%nat then o else l) with o by (destruct (Nat.ltb_spec o l); lia).
      destruct (_ <? _)%nat eqn:Q; rewrite !tpow_scale by (assumption || (try apply Nat.ltb_lt in Q); lia); ring. }
  assert (Ph : 2 * PI * (frequency / c) * (c * x) = 2 * PI * frequency * x) by (field; lra).
  unfold ssRow, ssUnit. rewrite map_length, Ph. set (nh := (o + length knots - 1)%nat) in *.
  destruct (Nat.ltb_spec k nh) as [Q|Q].
  - rewrite Nat.mod_small by assumption. rewrite Sc by assumption. ring.
  - replace (k mod nh)%nat with (k - nh)%nat; [rewrite Sc by lia; ring|].
    replace k with ((k - nh) + 1 * nh)%nat at 2 by lia. rewrite Nat.mod_add, Nat.mod_small by lia. reflexivity.
Qed.
Print Assumptions C63_spline_unit.

(** ** SineSplineDrift *)
Section Drift.
  Context (o degree : nat) (knots : list R) (Two : (2 <= length knots)%nat) (Up : ascending knots).
  Notation nh := (o + length knots - 1)%nat.
  Notation nd := (degree + 1)%nat.

  Definition dphase (p : list R) (x : R) : R := 2 * PI * x * polynomial nd (par p) x.
  Definition damp0 (p : list R) (x : R) : R := splines o knots (fun k => par p (nd + k)) x.
  Definition damp1 (p : list R) (x : R) : R := splines o knots (fun k => par p (nd + nh + k)) x.
  Definition dspec (p : list R) (x : R) : R := damp0 p x * cos (dphase p x) + damp1 p x * sin (dphase p x).

  Lemma phase_eq p x : sdPhase degree p x = dphase p x.
  Proof.
    unfold sdPhase, dphase. rewrite poly_result. f_equal. apply sum_ext. intros k Hk. f_equal. apply par_firstn. exact Hk.
  Qed.
  Lemma amps_eq xs p : length p = sdNp o degree knots -> sdAmps o degree knots xs p = Some (map (damp0 p) xs, map (damp1 p) xs).
  Proof using Two Up.
    unfold sdNp. intro L. unfold sdAmps.
    rewrite !spl_result by (try assumption; rewrite ?firstn_length, ?skipn_length; lia). f_equal. f_equal; apply map_ext; intro x; apply spl_ext; intros k Hk.
    - rewrite par_firstn by exact Hk. apply par_skipn.
    - apply par_skipn.
  Qed.
  Lemma result_eq xs p : length p = sdNp o degree knots -> sdResult o degree knots xs p = Some (map (dspec p) xs).
  Proof using Two Up.
    intro L. unfold sdResult. rewrite amps_eq by exact L. f_equal. unfold pts. induction xs as [|x xs IH]; [reflexivity|]. cbn [map combine].
    rewrite IH, phase_eq. reflexivity.
  Qed.
End Drift.

(** Splines times the cosine and the sine of a phase that drifts; the partials to all parameters. *)
Theorem C63_drift o degree knots xs params : (2 <= length knots)%nat -> ascending knots -> length params = sdNp o degree knots ->
  sdResult o degree knots xs params = Some (map (dspec o degree knots params) xs) /\
  exists rows, sdPartial o degree knots xs params = Some rows /\ length rows = length xs /\
    forall i k, (i < length xs)%nat -> (k < sdNp o degree knots)%nat ->
      is_derive (fun t : R => match sdResult o degree knots xs (upd k t params) with Some res => nth i res 0 | None => 0 end)
        (par params k) (nth i rows (fun _ => 0) k).
Proof.
  intros Two Up L. split; [apply result_eq; assumption|].
  destruct (C52_basis o knots xs Two Up) as (r & E & Lr & V).
  unfold sdPartial. rewrite amps_eq, E by assumption. eexists. split; [reflexivity|]. split.
  { unfold pts. rewrite map_length, !combine_length, !map_length. lia. }
  intros i k Hi Hk. set (x := nth i xs 0).
  assert (Rw : nth i (map (fun q => let '(x, (a, b), r0) := q in sdRow o degree knots params x a b r0)
       (combine (pts xs (map (damp0 o degree knots params) xs) (map (damp1 o degree knots params) xs)) r)) (fun _ => 0)
       = sdRow o degree knots params x (damp0 o degree knots params x) (damp1 o degree knots params x) (nth i r (fun _ => 0))).
  { unfold x, pts. clear - Lr Hi. revert r i Lr Hi. induction xs as [|y ys IH]; intros [|q r] [|i] Lr Hi; cbn in *; try lia; [reflexivity|]. apply IH; lia. }
  rewrite Rw. clear Rw.
  apply (is_derive_ext (fun t : R => dspec o degree knots (upd k t params) x)).
  { intro t. rewrite result_eq by (try assumption; rewrite upd_length by lia; exact L).
    rewrite (nth_indep _ 0 (dspec o degree knots (upd k t params) 0)) by (rewrite map_length; exact Hi). rewrite map_nth. reflexivity. }
  set (nd := (degree + 1)%nat). set (nh := (o + length knots - 1)%nat).
  assert (Np : sdNp o degree knots = (nd + (nh + nh))%nat) by (unfold sdNp, nd, nh; lia).
  assert (PU : forall t j, par (upd k t params) j = if (j =? k)%nat then t else par params j) by (intros; apply par_upd; lia).
  unfold sdRow. fold nd nh. rewrite phase_eq. set (ph := dphase degree params x).
  destruct (Nat.ltb_spec k nd) as [K1|K1]; [|destruct (Nat.ltb_spec k (nd + nh)) as [K2|K2]].
  - (* drift *)
    apply (is_derive_ext (fun t : R => damp0 o degree knots params x * cos (2 * PI * x * (polynomial nd (par params) x + (t - par params k) * x ^ k))
              + damp1 o degree knots params x * sin (2 * PI * x * (polynomial nd (par params) x + (t - par params k) * x ^ k)))).
    { intro t. unfold dspec.
      assert (D0 : damp0 o degree knots (upd k t params) x = damp0 o degree knots params x).
      { apply sum_ext. intros j Hj. rewrite PU. fold nd. destruct (Nat.eqb_spec (nd + j) k); [lia|reflexivity]. }
      assert (D1 : damp1 o degree knots (upd k t params) x = damp1 o degree knots params x).
      { apply sum_ext. intros j Hj. rewrite PU. fold nd nh. destruct (Nat.eqb_spec (nd + nh + j) k); [lia|reflexivity]. }
      assert (D2 : polynomial nd (par (upd k t params)) x = polynomial nd (par params) x + (t - par params k) * x ^ k).
      { unfold polynomial. assert (S1 : sum nd (fun j => if (j =? k)%nat then (t - par params k) * x ^ j else 0) = (t - par params k) * x ^ k).
        { rewrite (sum_one nd k); [rewrite Nat.eqb_refl; reflexivity|exact K1|]. intros j _ Dj. destruct (Nat.eqb_spec j k); [contradiction|reflexivity]. }
        rewrite <- S1, <- sum_plus. apply sum_ext. intros j Hj. rewrite PU. destruct (Nat.eqb_spec j k) as [->|]; ring. }
      unfold dphase. fold nd. rewrite D0, D1, D2. reflexivity. }
    assert (Eph : ph = 2 * PI * x * polynomial nd (par params) x) by reflexivity.
    set (P := polynomial nd (par params) x) in *. set (a := damp0 _ _ _ _ _). set (b := damp1 _ _ _ _ _). rewrite powers_pow. set (xk := x ^ k). set (pk := par params k).
    auto_derive; [trivial|]. replace (2 * PI * x * (P + (pk + - pk) * xk)) with ph by (rewrite Eph; ring). ring.
  - (* cosine amplitude *)
    assert (S1 : forall t, damp0 o degree knots (upd k t params) x = damp0 o degree knots params x + (t - par params k) * spline o knots (k - nd) x).
    { intro t. unfold damp0, splines. fold nh nd.
      assert (S1 : sum nh (fun j => if (j =? k - nd)%nat then (t - par params k) * spline o knots j x else 0) = (t - par params k) * spline o knots (k - nd) x).
      { rewrite (sum_one nh (k - nd)); [rewrite Nat.eqb_refl; reflexivity|lia|]. intros j _ Dj. destruct (Nat.eqb_spec j (k - nd)); [contradiction|reflexivity]. }
      rewrite <- S1, <- sum_plus. apply sum_ext. intros j Hj. rewrite PU. destruct (Nat.eqb_spec (nd + j) k) as [Ek|], (Nat.eqb_spec j (k - nd)) as [|]; try lia; try rewrite Ek; ring. }
    apply (is_derive_ext (fun t : R => (damp0 o degree knots params x + (t - par params k) * spline o knots (k - nd) x) * cos ph + damp1 o degree knots params x * sin ph)).
    { intro t. unfold dspec. rewrite S1.
      assert (D1 : damp1 o degree knots (upd k t params) x = damp1 o degree knots params x).
      { apply sum_ext. intros j Hj. rewrite PU. fold nd nh. destruct (Nat.eqb_spec (nd + nh + j) k); [lia|reflexivity]. }
      assert (D2 : dphase degree (upd k t params) x = ph).
      { unfold ph, dphase. f_equal. apply sum_ext. intros j Hj. rewrite PU. destruct (Nat.eqb_spec j k); [lia|reflexivity]. }
      rewrite D1, D2. reflexivity. }
    rewrite V by (fold nh; lia). fold x. auto_derive; [trivial|]. ring.
  - assert (S1 : forall t, damp1 o degree knots (upd k t params) x = damp1 o degree knots params x + (t - par params k) * spline o knots (k - (nd + nh)) x).
    { intro t. unfold damp1, splines. fold nh nd.
      assert (S1 : sum nh (fun j => if (j =? k - (nd + nh))%nat then (t - par params k) * spline o knots j x else 0) = (t - par params k) * spline o knots (k - (nd + nh)) x).
      { rewrite (sum_one nh (k - (nd + nh))); [rewrite Nat.eqb_refl; reflexivity|lia|]. intros j _ Dj. destruct (Nat.eqb_spec j (k - (nd + nh))); [contradiction|reflexivity]. }
      rewrite <- S1, <- sum_plus. apply sum_ext. intros j Hj. rewrite PU. destruct (Nat.eqb_spec (nd + nh + j) k) as [Ek|], (Nat.eqb_spec j (k - (nd + nh))) as [|]; try lia; try rewrite Ek; ring. }
    apply (is_derive_ext (fun t : R => damp0 o degree knots params x * cos ph + (damp1 o degree knots params x + (t - par params k) * spline o knots (k - (nd + nh)) x) * sin ph)).
    { intro t. unfold dspec. rewrite S1.
      assert (D1 : damp0 o degree knots (upd k t params) x = damp0 o degree knots params x).
      { apply sum_ext. intros j Hj. rewrite PU. fold nd nh. destruct (Nat.eqb_spec (nd + j) k); [lia|reflexivity]. }
      assert (D2 : dphase degree (upd k t params) x = ph).
      { unfold ph, dphase. f_equal. apply sum_ext. intros j Hj. rewrite PU. destruct (Nat.eqb_spec j k); [lia|reflexivity]. }
      rewrite D1, D2. reflexivity. }
    rewrite V by (fold nh; lia). fold x. auto_derive; [trivial|]. ring.
Qed.
Print Assumptions C63_drift.

(** There is never a derivative: polynomial and splines are handed all parameters; numpy raises an error. *)
Theorem C63_drift_derivative_refuted o degree knots xs params : (2 <= length knots)%nat -> (2 <= o + length knots - 1)%nat ->
  length params = sdNp o degree knots -> sdDerivative o degree knots xs params = None.
Proof.
  unfold sdNp. intros K H L. unfold sdDerivative. destruct (forallb _ xs); [|reflexivity]. destruct (sdAmps o degree knots xs params) as [(a & c)|]; [|reflexivity].
  rewrite spl_derivative_none by lia. reflexivity.
Qed.
Print Assumptions C63_drift_derivative_refuted.

(** The unit of the amplitude of the cosine, parameter degree + 1, has a power of xUnit, as the parameters of the drift are forgotten;
    when the unit of x is changed (the parameters of the drift changed along) its partial stays the same. *)
Theorem C63_drift_unit_refuted : exists o degree knots params, ascending knots /\ length params = sdNp o degree knots /\ sdUnit2 o degree knots (degree + 1) = 4%nat /\
  forall c x, 0 < c -> exists rows rows', sdPartial o degree knots [x] params = Some rows /\
    sdPartial o degree (map (Rmult c) knots) [c * x] params = Some rows' /\ nth 0 rows' (fun _ => 0) (degree + 1)%nat = nth 0 rows (fun _ => 0) (degree + 1)%nat.
Proof.
  exists 3%nat, 1%nat, [0; 1], (repeat 0 10). split; [intros [|[|i]] [|[|j]] H; cbn in *; lia || lra|]. split; [reflexivity|]. split; [reflexivity|].
  intros c x C.
  assert (A1 : ascending [0; 1]) by (intros [|[|i]] [|[|j]] H; cbn in *; lia || lra).
  assert (A2 : ascending (map (Rmult c) [0; 1])) by (intros [|[|i]] [|[|j]] H; cbn in *; lia || lra).
  destruct (C52_basis 3 [0; 1] [x] ltac:(cbn; lia) A1) as (r1 & E1 & L1 & V1).
  destruct (C52_basis 3 (map (Rmult c) [0; 1]) [c * x] ltac:(cbn; lia) A2) as (r2 & E2 & L2 & V2).
  unfold sdPartial. rewrite !amps_eq, E1, E2 by (cbn; lia || assumption || reflexivity).
  eexists _, _. split; [reflexivity|]. split; [reflexivity|].
  destruct r1 as [|r1 [|]]; cbn in L1; try lia. destruct r2 as [|r2 [|]]; cbn in L2; try lia.
  cbn [map pts combine nth]. unfold sdRow. cbn [Nat.add Nat.ltb Nat.leb length Nat.sub].
  assert (Ph : forall y, sdPhase 1 (repeat 0 10) y = 0) by (intro; unfold sdPhase, polyResult, linear, par; cbn; ring).
  rewrite !Ph. specialize (V1 0%nat 0%nat ltac:(cbn; lia) ltac:(cbn; lia)). specialize (V2 0%nat 0%nat ltac:(cbn; lia) ltac:(cbn; lia)). cbn in V1, V2. cbn. rewrite V1, V2. reflexivity.
Qed.
Print Assumptions C63_drift_unit_refuted.

Example C63_example : psaResult 1 (1/4) 1 2 [1; 2; 3; 4] = 11 /\ psaDerivative 1 (1/4) 1 2 [1; 2; 3; 4] = Some (- (PI / 2) * 5, 4) /\
  length [1; 2; 3; 4] = (2 * 1 + 2)%nat.
Proof.
  split; [|split; [|reflexivity]].
  - rewrite psa_result. unfold psaSpec, polynomial, par. cbn. replace (2 * PI * (1 / 4) * 1) with (PI / 2) by field. rewrite sin_PI2, cos_PI2. lra.
  - unfold psaDerivative, polyDerivative, bcast. cbn. unfold polyResult, linear, par. cbn. replace (2 * PI * (1 / 4) * 1) with (PI / 2) by field. rewrite sin_PI2, cos_PI2. f_equal. f_equal; field.
Qed.
