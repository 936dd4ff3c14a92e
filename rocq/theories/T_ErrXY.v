(** Theorems C42: ErrorsInXandYProblem. *)
From Coquelicot Require Import Coquelicot.
From Coq Require Import List Arith Reals Lia Lra.
From Verif Require Import M_ErrXY.
Import ListNotations.
Local Open Scope R_scope.

(** The covariance matrix of point i as documented (89-103): yy, xx, xy. *)
Definition covOf (arg : xyarg) (i : nat) : R * R * R :=
  match arg with
  | NoAcc => (0, 0, 0)
  | Cov yy xx xy => (yy, xx, xy)
  | Covs l => nth i l (0, 0, 0)
  | Acc0 a => (a * a, a * a, 0)
  | Acc2 y x => (y * y, x * x, 0)
  | Acc3 y x r => (y * y, x * x, y * x * r)
  | Rows2 l => let '(y, x) := nth i l (0, 0) in (y * y, x * x, 0)
  | Rows3 l => let '(y, x, r) := nth i l (0, 0, 0) in (y * y, x * x, y * x * r)
  end.
Definition notScalar (arg : xyarg) : Prop := forall a, arg <> Acc0 a.

Lemma vars_cov arg i : notScalar arg -> covOf arg i = (varyy (setAcc arg) i, varxx (setAcc arg) i, varxy (setAcc arg) i).
Proof.
  intro N. destruct arg as [|yy xx xy|l|a|y x|y x r|l|l]; cbn [covOf setAcc varyy varxx varxy]; try reflexivity.
  - destruct (nth i l (0, 0, 0)) as [[a b] c]. reflexivity.
  - destruct (N a eq_refl).
  - f_equal. ring.
  - f_equal. ring.
  - replace (nth i (map sq2 l) (0, 0)) with (sq2 (nth i l (0, 0))).
    + destruct (nth i l (0, 0)) as [a b]. reflexivity.
    + rewrite <- (map_nth sq2). replace (sq2 (0, 0)) with (0, 0); [reflexivity|]. unfold sq2. cbn [fst snd]. rewrite Rmult_0_l. reflexivity.
  - replace (nth i (map sq3 l) (0, 0, 0)) with (sq3 (nth i l (0, 0, 0))).
    + destruct (nth i l (0, 0, 0)) as [[a b] c]. unfold sq3, yy3, xx3, xy3. cbn. f_equal. ring.
    + rewrite <- (map_nth sq3). replace (sq3 (0, 0, 0)) with (0, 0, 0); [reflexivity|]. unfold sq3, yy3, xx3, xy3. cbn [fst snd]. rewrite !Rmult_0_l. reflexivity.
Qed.

Lemma xyres_nth np f d g X Y w arg pars u i x y t : length pars = np ->
  nth_error X i = Some x -> nth_error Y i = Some y -> nth_error u i = Some t ->
  nth_error (xyres (mkProblem np f d g X Y w arg) (pars ++ u)) i = Some (y - f t pars, x - t).
Proof.
  intros L HX HY HU. unfold xyres, splitParam, mkProblem. cbn [q_np q_x q_y q_res].
  rewrite <- L, skipn_app, skipn_all, Nat.sub_diag, firstn_app, firstn_all, Nat.sub_diag. cbn [skipn firstn app]. rewrite app_nil_r.
  revert X Y i HX HY HU. induction u as [|t0 u IH]; intros [|x0 X] [|y0 Y] [|i] HX HY HU; cbn in *; try discriminate.
  - injection HX as ->. injection HY as ->. injection HU as ->. reflexivity.
  - apply IH; assumption.
Qed.

Lemma enum_nth {A B} (h : nat * A -> B) (l : list A) i a : nth_error l i = Some a ->
  nth_error (map h (combine (seq 0 (length l)) l)) i = Some (h (i, a)).
Proof.
  intro H. rewrite nth_error_map. assert (E : forall k, nth_error (combine (seq k (length l)) l) i = Some ((k + i)%nat, a)).
  { revert i H. induction l as [|b l IH]; intros [|i] H k; cbn in *; try discriminate.
    - injection H as ->. rewrite Nat.add_0_r. reflexivity.
    - rewrite IH by exact H. replace (S k + i)%nat with (k + S i)%nat by lia. reflexivity. }
  rewrite E. reflexivity.
Qed.

(** The squared distance of point i is the quadratic form of the inverse of (covariance + scale^2): with m
    the solution of (V + s^2) m = residual, it is weight * residual . m; with extra the two components of m,
    weighted, are handed out too. *)
Theorem C42_quadratic : forall np f d g X Y w arg pars u s i x y t, notScalar arg -> length pars = np ->
  nth_error X i = Some x -> nth_error Y i = Some y -> nth_error u i = Some t ->
  let p := mkProblem np f d g X Y w arg in
  let '(vyy, vxx, vxy) := covOf arg i in
  let ry := y - f t pars in let rx := x - t in
  (vyy + s^2) * (vxx + s^2) - vxy^2 <> 0 ->
  exists my mx : R, (vyy + s^2) * my + vxy * mx = ry /\ vxy * my + (vxx + s^2) * mx = rx /\
    nth_error (weightedResSq p (pars ++ u) s) i = Some ((ry * my + rx * mx) * wgt p i) /\
    extraY p i s ry rx = my * wgt p i /\ extraX p i s ry rx = mx * wgt p i.
Proof.
  intros np f d g X Y w arg pars u s i x y t N L HX HY HU p.
  assert (V := vars_cov arg i N). destruct (covOf arg i) as [[vyy vxx] vxy] eqn:C. injection V as Vy Vx Vxy.
  intros ry rx D. set (dt := (vyy + s^2) * (vxx + s^2) - vxy^2) in *.
  assert (DT : q_det p i + s * s * (varyy (q_store p) i + varxx (q_store p) i + s * s) = dt).
  { unfold p, mkProblem. cbn [q_det q_store]. unfold detOf. rewrite <- Vy, <- Vx, <- Vxy. unfold dt. ring. }
  exists ((vxx + s^2) / dt * ry - vxy / dt * rx), ((vyy + s^2) / dt * rx - vxy / dt * ry).
  assert (I : invItems p i s = ((vxx + s * s) / dt, (vyy + s * s) / dt, - vxy / dt)).
  { unfold invItems. cbv zeta. rewrite DT. unfold p, mkProblem. cbn [q_store]. rewrite <- Vy, <- Vx, <- Vxy. reflexivity. }
  split; [unfold dt in *; field; exact D|]. split; [unfold dt in *; field; exact D|]. split; [|split].
  - unfold weightedResSq. rewrite (enum_nth _ _ i (ry, rx)) by (apply xyres_nth; assumption). cbn [fst snd]. f_equal. f_equal.
    unfold res2. rewrite I. field. exact D.
  - unfold extraY. rewrite I. f_equal. field. exact D.
  - unfold extraX. rewrite I. f_equal. field. exact D.
Qed.
Print Assumptions C42_quadratic.

Example C42_quadratic_example : let p := mkProblem 1 (fun x a => nth 0 a 0 * x) (fun x a => nth 0 a 0) (fun x a => [x]) [1; 2] [3; 5] None (Acc3 2 1 (1/2)) in
  exists v, nth_error (weightedResSq p ([2] ++ [1; 1]) 0) 1 = Some v /\ v = 7 / 3.
Proof.
  cbv zeta. eexists. split; [reflexivity|]. unfold res2, invItems, detOf, wgt. cbn. unfold detOf. cbn. field.
Qed.

(** Scales that are positive, a correlation less than 1, or a noise scale: the matrix has an inverse and the
    distance is positive unless both residuals are zero. *)
Theorem C42_positive : forall np f d g X Y w arg i s y x, notScalar arg ->
  let p := mkProblem np f d g X Y w arg in
  let '(vyy, vxx, vxy) := covOf arg i in
  0 <= vyy -> 0 <= vxx -> vxy^2 <= vyy * vxx -> (s <> 0 \/ vxy^2 < vyy * vxx) ->
  0 < (vyy + s^2) * (vxx + s^2) - vxy^2 /\ 0 <= res2 p i s y x /\ (res2 p i s y x = 0 <-> y = 0 /\ x = 0).
Proof.
  intros np f d g X Y w arg i s y x N p.
  assert (V := vars_cov arg i N). destruct (covOf arg i) as [[vyy vxx] vxy] eqn:C. injection V as Vy Vx Vxy.
  intros P1 P2 P3 P4. set (dt := (vyy + s^2) * (vxx + s^2) - vxy^2).
  assert (S2 : 0 <= s^2) by nra. assert (D : 0 < dt).
  { unfold dt. destruct P4 as [P4|P4]; [|nra]. assert (0 < s^2) by nra. assert (0 < s^2 * s^2) by nra. nra. }
  assert (DT : q_det p i + s * s * (varyy (q_store p) i + varxx (q_store p) i + s * s) = dt).
  { unfold p, mkProblem. cbn [q_det q_store]. unfold detOf. rewrite <- Vy, <- Vx, <- Vxy. unfold dt. ring. }
  assert (R2 : res2 p i s y x = ((vyy + s^2) * x^2 + (vxx + s^2) * y^2 - 2 * vxy * x * y) / dt).
  { unfold res2, invItems. cbv zeta. rewrite DT. unfold p, mkProblem. cbn [q_store]. rewrite <- Vy, <- Vx, <- Vxy. field. lra. }
  split; [exact D|]. set (a := vyy + s^2) in *. set (b := vxx + s^2) in *.
  assert (A : 0 < a /\ 0 < b).
  { unfold dt in D. assert (0 <= a) by (unfold a; nra). assert (0 <= b) by (unfold b; nra). assert (0 < a * b) by nra. split; nra. }
  destruct A as [A B].
  assert (Q : a * (a * x^2 + b * y^2 - 2 * vxy * x * y) = (a * x - vxy * y)^2 + dt * y^2) by (unfold dt; ring).
  assert (Q2 : 0 <= a * x^2 + b * y^2 - 2 * vxy * x * y).
  { apply Rmult_le_reg_l with a; [exact A|]. rewrite Rmult_0_r, Q. apply Rplus_le_le_0_compat; [apply pow2_ge_0|apply Rmult_le_pos; [lra|apply pow2_ge_0]]. }
  rewrite R2. split.
  - apply Rmult_le_pos; [exact Q2|]. left. apply Rinv_0_lt_compat, D.
  - split.
    + intro E. assert (E0 : a * x^2 + b * y^2 - 2 * vxy * x * y = 0).
      { apply Rmult_eq_reg_r with (/ dt); [|apply Rinv_neq_0_compat; lra]. rewrite Rmult_0_l. exact E. }
      rewrite E0, Rmult_0_r in Q. 
      assert (Z : forall z : R, z <> 0 -> 0 < z^2) by (intros z Hz; apply pow2_gt_0; exact Hz).
      assert (Y0 : y = 0).
      { destruct (Req_dec y 0) as [|NY]; [assumption|]. assert (0 < dt * y^2) by (apply Rmult_lt_0_compat; auto). assert (0 <= (a * x - vxy * y)^2) by apply pow2_ge_0. lra. }
      subst y. split; [reflexivity|]. destruct (Req_dec x 0) as [|NX]; [assumption|].
      assert (0 < (a * x)^2) by (apply Z; apply Rmult_integral_contrapositive; lra). nra.
    + intros [-> ->]. unfold Rdiv. ring.
Qed.
Print Assumptions C42_positive.

Example C42_positive_example : covOf (Acc3 2 1 (1/2)) 0 = (2 * 2, 1 * 1, 2 * 1 * (1/2)) /\ (2 * 1 * (1/2))^2 < (2 * 2) * (1 * 1).
Proof. split; [reflexivity|lra]. Qed.

(** The second item of extra is half the gradient of the distance. *)
Theorem C42_gradient : forall p i s y x,
  is_derive (fun y => res2 p i s y x * wgt p i) y (2 * extraY p i s y x) /\
  is_derive (fun x => res2 p i s y x * wgt p i) x (2 * extraX p i s y x).
Proof.
  intros p i s y x. unfold res2, extraY, extraX. destruct (invItems p i s) as [[myy mxx] mxy].
  split; auto_derive; auto; ring.
Qed.
Print Assumptions C42_gradient.

(** Without accuracies the scale alone counts. *)
Theorem C42_no_accuracy : forall np f d g X Y w pars u s i x y t, length pars = np -> s <> 0 ->
  nth_error X i = Some x -> nth_error Y i = Some y -> nth_error u i = Some t ->
  let p := mkProblem np f d g X Y w NoAcc in
  nth_error (weightedResSq p (pars ++ u) s) i = Some (((y - f t pars)^2 + (x - t)^2) / s^2 * wgt p i) /\
  extra2 p i (y - f t pars) (x - t) = ((y - f t pars)^2 + (x - t)^2) * wgt p i.
Proof.
  intros np f d g X Y w pars u s i x y t L S HX HY HU p. split.
  - unfold weightedResSq, p. rewrite (enum_nth _ _ i (y - f t pars, x - t)) by (apply xyres_nth; assumption). cbn [fst snd]. f_equal. f_equal.
    unfold res2, invItems, mkProblem, detOf. cbn [q_store q_det setAcc varyy varxx varxy]. field. exact S.
  - unfold extra2. f_equal. ring.
Qed.
Print Assumptions C42_no_accuracy.

(** Parameters of the model and targets are taken apart as they were put together. *)
Theorem C42_split : forall p pars u, length pars = q_np p ->
  splitParam p (pars ++ u) = (u, pars) /\ result p (pars ++ u) = map (fun t => q_res p t pars) u.
Proof.
  intros p pars u L. assert (E : splitParam p (pars ++ u) = (u, pars)).
  { unfold splitParam. rewrite <- L, skipn_app, skipn_all, Nat.sub_diag, firstn_app, firstn_all, Nat.sub_diag. cbn [skipn firstn app]. rewrite app_nil_r. reflexivity. }
  split; [exact E|]. unfold result. rewrite E. reflexivity.
Qed.
Print Assumptions C42_split.

Example C42_split_example : splitParam (mkProblem 2 (fun _ _ => 0) (fun _ _ => 0) (fun _ _ => []) [7] [8] None NoAcc) ([1; 2] ++ [3]) = ([3], [1; 2]).
Proof. reflexivity. Qed.

Lemma unit_nth n i k : (k < n)%nat -> nth k (map (fun k => if (k =? i)%nat then 1 else 0) (seq 0 n)) 0 = if (k =? i)%nat then 1 else 0.
Proof.
  intro K. rewrite (nth_indep _ 0 ((fun k => if (k =? i)%nat then 1 else 0) 0%nat)) by (rewrite map_length, seq_length; exact K).
  rewrite (map_nth (fun k => if (k =? i)%nat then 1 else 0)), seq_nth by exact K. reflexivity.
Qed.

Lemma diag_nth l n i k : length l = n -> (k < n)%nat ->
  nth k (map (fun de : R * R => fst de * snd de) (combine l (map (fun k => if (k =? i)%nat then 1 else 0) (seq 0 n)))) 0 = if (k =? i)%nat then nth k l 0 else 0.
Proof.
  intros L K. rewrite (nth_indep _ 0 ((fun de : R * R => fst de * snd de) (0, 0))) by (rewrite map_length, combine_length, map_length, seq_length; lia).
  rewrite (map_nth (fun de : R * R => fst de * snd de)), combine_nth by (rewrite map_length, seq_length; exact L). cbn [fst snd]. rewrite unit_nth by exact K.
  destruct (k =? i)%nat; ring.
Qed.

(** The matrix of partials: rows for the results then rows for the targets; columns for the parameters of
    the model, then for the targets. *)
Theorem C42_partial_matrix : forall p pars u, length pars = q_np p -> (forall t a, length (q_par p t a) = q_np p) ->
  length (partial p (pars ++ u)) = (2 * length u)%nat /\
  (forall i t, nth_error u i = Some t -> exists row, nth_error (partial p (pars ++ u)) i = Some row /\
     length row = (q_np p + length u)%nat /\
     (forall k, (k < q_np p)%nat -> nth k row 0 = nth k (q_par p t pars) 0) /\
     (forall k, (k < length u)%nat -> nth (q_np p + k) row 0 = if (k =? i)%nat then q_der p t pars else 0)) /\
  (forall i, (i < length u)%nat -> exists row, nth_error (partial p (pars ++ u)) (length u + i) = Some row /\
     length row = (q_np p + length u)%nat /\
     (forall k, (k < q_np p)%nat -> nth k row 0 = 0) /\
     (forall k, (k < length u)%nat -> nth (q_np p + k) row 0 = if (k =? i)%nat then 1 else 0)).
Proof.
  intros p pars u L G. destruct (C42_split p pars u L) as [E _]. unfold partial. rewrite E. cbv zeta.
  match goal with |- length (?a ++ ?b) = _ /\ _ => set (top := a); set (bot := b) end.
  assert (LT : length top = length u) by (unfold top; rewrite map_length, combine_length, seq_length; lia).
  assert (LB : length bot = length u) by (unfold bot; rewrite map_length, seq_length; reflexivity).
  split; [rewrite app_length; lia|]. split.
  - intros i t T. assert (I : (i < length u)%nat) by (apply nth_error_Some; congruence).
    eexists. split; [rewrite nth_error_app1 by lia; unfold top; rewrite (enum_nth _ _ i t T); cbn [fst snd]; reflexivity|].
    split; [rewrite app_length, G, map_length, combine_length, !map_length, seq_length; lia|]. split.
    + intros k K. rewrite app_nth1 by (rewrite G; exact K). reflexivity.
    + intros k K. rewrite app_nth2 by (rewrite G; lia). rewrite G. replace (q_np p + k - q_np p)%nat with k by lia.
      rewrite diag_nth by (rewrite ?map_length; auto). destruct (k =? i)%nat eqn:EK; [|reflexivity].
      apply Nat.eqb_eq in EK. subst k. rewrite (nth_indep _ 0 (q_der p 0 pars)) by (rewrite map_length; exact I). rewrite (map_nth (fun u0 => q_der p u0 pars)).
      f_equal. apply nth_error_nth. exact T.
  - intros i I. eexists. split.
    + rewrite nth_error_app2 by lia. replace (length u + i - length top)%nat with i by lia. unfold bot. rewrite nth_error_map.
      rewrite (nth_error_nth' (seq 0 (length u)) 0%nat) by (rewrite seq_length; exact I). rewrite seq_nth by exact I. reflexivity.
    + split; [rewrite app_length, repeat_length, map_length, seq_length; reflexivity|]. split.
      * intros k K. rewrite app_nth1 by (rewrite repeat_length; exact K). apply nth_repeat.
      * intros k K. rewrite app_nth2 by (rewrite repeat_length; lia). rewrite repeat_length. replace (q_np p + k - q_np p)%nat with k by lia.
        apply unit_nth. exact K.
Qed.
Print Assumptions C42_partial_matrix.

Example C42_partial_example : partial (mkProblem 1 (fun x a => nth 0 a 0 * x) (fun x a => nth 0 a 0) (fun x a => [x]) [1; 2] [3; 5] None NoAcc) [7; 1; 2] =
  [[1; 7 * 1; 7 * 0]; [2; 7 * 0; 7 * 1]; [0; 1; 0]; [0; 0; 1]].
Proof. reflexivity. Qed.

(** Unit and domain values of parameters and targets are each other's inverse if those of the model and
    of the prior are; a target in the middle of the prior is its data point. *)
Theorem C42_unit : forall md2u mu2d pd2u pu2d p k,
  (forall v, mu2d k (md2u k v) = v) -> (forall v, pu2d (pd2u v) = v) ->
  (forall v, unit2Domain mu2d pu2d p (domain2Unit md2u pd2u p v k) k = v) /\
  (forall j x u, k = (q_np p + j)%nat -> nth_error (q_x p) j = Some x -> pu2d u = 0 -> unit2Domain mu2d pu2d p u k = x).
Proof.
  intros md2u mu2d pd2u pu2d p k M P. split.
  - intro v. unfold unit2Domain, domain2Unit. destruct (k <? q_np p)%nat; [apply M|]. rewrite P. ring.
  - intros j x u -> H Z. unfold unit2Domain. replace (q_np p + j <? q_np p)%nat with false by (symmetry; apply Nat.ltb_ge; lia).
    replace (q_np p + j - q_np p)%nat with j by lia. rewrite (nth_error_nth _ _ _ H), Z. ring.
Qed.
Print Assumptions C42_unit.

Example C42_unit_example : unit2Domain (fun _ u => u) (fun u => 2 * u - 1) (mkProblem 1 (fun _ _ => 0) (fun _ _ => 0) (fun _ _ => []) [5] [6] None NoAcc) (1/2) 1 = 5.
Proof. unfold unit2Domain. cbn. lra. Qed.

(** ** The accuracies *)
(** Copies share everything and do not change anything, unless the accuracies are one number or rows. *)
Theorem C42_copy : forall np f d g X Y w arg, notScalar arg -> (forall l, arg <> Rows2 l) -> (forall l, arg <> Rows3 l) ->
  copyXY (mkProblem np f d g X Y w arg) = (mkProblem np f d g X Y w arg, mkProblem np f d g X Y w arg) /\ argAfter arg = arg.
Proof.
  intros np f d g X Y w arg N1 N2 N3. destruct arg as [|? ? ?|l|a|? ?|? ? ?|l|l]; try (split; reflexivity).
  - destruct (N1 a eq_refl).
  - destruct (N2 l eq_refl).
  - destruct (N3 l eq_refl).
Qed.
Print Assumptions C42_copy.

Example C42_copy_example : fst (copyXY (mkProblem 0 (fun _ _ => 0) (fun _ _ => 0) (fun _ _ => []) [5] [6] None (Acc2 3 4))) =
  mkProblem 0 (fun _ _ => 0) (fun _ _ => 0) (fun _ _ => []) [5] [6] None (Acc2 3 4).
Proof. reflexivity. Qed.

(** One number: the variances are its fourth power, not its square. *)
Theorem C42_scalar_refuted : forall a i, varyy (setAcc (Acc0 a)) i = a^4 /\ varxx (setAcc (Acc0 a)) i = a^4.
Proof. intros a i. cbn. unfold sq0. cbv zeta. split; ring. Qed.
Print Assumptions C42_scalar_refuted.

(** Rows: the array of the caller is overwritten. *)
Theorem C42_argument_refuted : exists l, argAfter (Rows2 l) <> Rows2 l.
Proof. exists [(2, 3)]. cbn. unfold sq2. cbn. intro E. injection E as E _. lra. Qed.
Print Assumptions C42_argument_refuted.

(** Rows: making a copy changes the distances of the original. *)
Theorem C42_copy_refuted : exists p q c a, p = mkProblem 0 (fun _ _ => 0) (fun _ _ => 0) (fun _ _ => []) [1] [0] None (Rows2 [(2, 1)]) /\
  copyXY p = (q, c) /\ weightedResSq p [0] 0 = [a] /\ a = 1 /\ (exists b, weightedResSq q [0] 0 = [b] /\ b = 4).
Proof.
  do 4 eexists. split; [reflexivity|]. split; [reflexivity|]. split; [reflexivity|]. split.
  - unfold res2, invItems, wgt. cbn. unfold detOf. cbn. field.
  - eexists. split; [reflexivity|]. unfold res2, invItems, wgt. cbn. unfold detOf. cbn. field.
Qed.
Print Assumptions C42_copy_refuted.

(** One number: making a copy changes the variances of the original, and of the copy, to the sixteenth power. *)
Theorem C42_copy_scalar_refuted : forall np f d g X Y w a i, let p := mkProblem np f d g X Y w (Acc0 a) in
  varyy (q_store p) i = a^4 /\ varyy (q_store (fst (copyXY p))) i = a^16 /\ varyy (q_store (snd (copyXY p))) i = a^16 /\
  varxx (q_store (fst (copyXY p))) i = a^16 /\ q_det (fst (copyXY p)) i = a^8.
Proof. intros. cbn. unfold sq0, detOf. cbn. unfold sq0. cbv zeta. repeat split; ring. Qed.
Print Assumptions C42_copy_scalar_refuted.
