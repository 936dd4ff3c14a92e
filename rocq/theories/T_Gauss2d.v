(** Theorems C70: the two-dimensional Gauss error distribution. *)
From Coquelicot Require Import Coquelicot.
From Coq Require Import List Arith Reals Lia Lra.
From Verif Require Import M_Order P_Order P_Amoeba L_Sum S_Evidence P_Evidence L_Whole M_ErrXY T_ErrXY M_Gauss2d.
Import ListNotations.
Local Open Scope R_scope.

(** The density in (ry,rx) of the two-dimensional normal distribution with covariance matrix [[vyy,vxy],[vxy,vxx]]. *)
Definition binormal (vyy vxx vxy ry rx : R) : R :=
  let det := vyy * vxx - vxy * vxy in
  exp (- ((vxx * ry * ry - 2 * vxy * ry * rx + vyy * rx * rx) / det) / 2) / (2 * PI * sqrt det).

Section Data.
  Context (np : nat) (f d : R -> list R -> R) (g : R -> list R -> list R) (X Y : list R) (w : option (list R)) (arg : xyarg).
  Let p := mkProblem np f d g X Y w arg.

  Lemma total_sum l : total l = sum (length l) (fun i => nth i l 0).
  Proof.
    induction l as [|a l IH]; [reflexivity|]. change (length (a :: l)) with (1 + length l)%nat. rewrite sum_app. cbn [sum nth total fold_right Nat.add]. fold (total l). rewrite IH. ring.
  Qed.

  Lemma enum_map_nth {A} (h : nat * A -> R) (l : list A) i a0 : (i < length l)%nat -> nth i (map h (enum l)) 0 = h (i, nth i l a0).
  Proof. intro I. apply nth_error_nth. unfold enum. apply enum_nth. now apply nth_error_nth'. Qed.

  Lemma enum_length {A} (l : list A) : length (enum l) = length l.
  Proof. unfold enum. rewrite combine_length, seq_length. lia. Qed.

  Lemma xyres_length pars u : length pars = np -> length X = length u -> length Y = length u -> length (xyres p (pars ++ u)) = length u.
  Proof.
    intros L LX LY. unfold xyres. destruct (C42_split p pars u L) as [E _]. rewrite E. rewrite map_length, !combine_length. cbn [q_x q_y p mkProblem]. unfold p; cbn. lia.
  Qed.

  Lemma xyres_at pars u i : length pars = np -> length X = length u -> length Y = length u -> (i < length u)%nat ->
    nth i (xyres p (pars ++ u)) (0, 0) = (nth i Y 0 - f (nth i u 0) pars, nth i X 0 - nth i u 0).
  Proof.
    intros L LX LY I. apply nth_error_nth. apply xyres_nth; [exact L|apply nth_error_nth'; lia ..].
  Qed.

  (** the term of point i *)
  Definition term (s : R) (i : nat) (pars : list R) (t : R) : R :=
    - (1 / 2) * ((LOG2PI + ln (updateDet p s i)) * wgt p i + res2 p i s (nth i Y 0 - f t pars) (nth i X 0 - t) * wgt p i).

  Lemma logLdata_nth pars u s i : length pars = np -> length X = length u -> length Y = length u -> (i < length u)%nat ->
    nth i (logLdata p (pars ++ u) s) 0 = term s i pars (nth i u 0).
  Proof.
    intros L LX LY I. assert (LL := xyres_length pars u L LX LY).
    assert (LW : length (weightedResSq p (pars ++ u) s) = length u) by (unfold weightedResSq; rewrite map_length, combine_length, seq_length; lia).
    unfold logLdata. rewrite (enum_map_nth _ _ i 0) by lia. cbn [fst snd]. unfold term. f_equal. f_equal.
    unfold weightedResSq. change (combine (seq 0 (length (xyres p (pars ++ u)))) (xyres p (pars ++ u))) with (enum (xyres p (pars ++ u))).
    rewrite (enum_map_nth _ _ i (0, 0)) by lia. cbn [fst snd]. rewrite (xyres_at pars u i L LX LY I). reflexivity.
  Qed.

  Lemma logLdata_length pars u s : length pars = np -> length X = length u -> length Y = length u -> length (logLdata p (pars ++ u) s) = length u.
  Proof.
    intros L LX LY. unfold logLdata. rewrite map_length, enum_length. unfold weightedResSq. rewrite map_length, combine_length, seq_length.
    rewrite (xyres_length pars u L LX LY). lia.
  Qed.

  Lemma logL_sum pars u s : length pars = np -> length X = length u -> length Y = length u ->
    total (logLdata p (pars ++ u) s) = sum (length u) (fun i => term s i pars (nth i u 0)).
  Proof.
    intros L LX LY. rewrite total_sum, logLdata_length by assumption. apply sum_ext. intros i I. now apply logLdata_nth.
  Qed.
End Data.

Lemma updateDet_cov np f d g X Y w arg s i : notScalar arg ->
  let '(vyy, vxx, vxy) := covOf arg i in
  updateDet (mkProblem np f d g X Y w arg) s i = (vyy + s * s) * (vxx + s * s) - vxy * vxy.
Proof.
  intro N. assert (V := vars_cov arg i N). destruct (covOf arg i) as [[vyy vxx] vxy]. injection V as Vy Vx Vxy.
  unfold updateDet, mkProblem. cbn [q_det q_store]. unfold detOf. rewrite <- Vy, <- Vx, <- Vxy. ring.
Qed.

(** Without the constant: an item of logLdata is the weight times the log of the normal density, plus half the log of 2 pi. *)
Theorem C70_density : forall np f d g X Y w arg pars u s i x y t, notScalar arg -> length pars = np ->
  length X = length u -> length Y = length u -> nth_error X i = Some x -> nth_error Y i = Some y -> nth_error u i = Some t ->
  let p := mkProblem np f d g X Y w arg in
  let '(vyy, vxx, vxy) := covOf arg i in
  0 < (vyy + s * s) * (vxx + s * s) - vxy * vxy ->
  nth_error (logLdata p (pars ++ u) s) i =
    Some (wgt p i * (ln (binormal (vyy + s * s) (vxx + s * s) vxy (y - f t pars) (x - t)) + ln (2 * PI) / 2)).
Proof.
  intros np f d g X Y w arg pars u s i x y t N L LX LY HX HY HU p.
  assert (V := vars_cov arg i N). assert (UD := updateDet_cov np f d g X Y w arg s i N). destruct (covOf arg i) as [[vyy vxx] vxy] eqn:C. injection V as Vy Vx Vxy.
  intro D. assert (I : (i < length u)%nat) by (apply nth_error_Some; congruence).
  rewrite (nth_error_nth' _ 0) by (unfold p; rewrite logLdata_length; assumption). f_equal.
  unfold p at 1. rewrite logLdata_nth by assumption. unfold term. fold p in UD |- *. rewrite UD.
  rewrite (nth_error_nth _ _ _ HX), (nth_error_nth _ _ _ HY), (nth_error_nth _ _ _ HU).
  set (det := (vyy + s * s) * (vxx + s * s) - vxy * vxy) in *. assert (SD := sqrt_lt_R0 det D). assert (PP := PI_RGT_0).
  unfold binormal. fold det. rewrite ln_div by (try apply exp_pos; apply Rmult_lt_0_compat; lra). rewrite ln_exp, ln_mult by lra.
  assert (LS : ln (sqrt det) = ln det / 2) by (rewrite <- Rpower_sqrt by exact D; unfold Rpower; rewrite ln_exp; field).
  rewrite LS. assert (R2 : res2 p i s (y - f t pars) (x - t) = ((vxx + s * s) * (y - f t pars) * (y - f t pars) - 2 * vxy * (y - f t pars) * (x - t) + (vyy + s * s) * (x - t) * (x - t)) / det).
  { unfold res2, invItems. cbv zeta.
    replace (q_det p i + s * s * (varyy (q_store p) i + varxx (q_store p) i + s * s)) with det by (rewrite <- UD; unfold updateDet; ring).
    unfold p, mkProblem; cbn [q_store]. rewrite <- Vy, <- Vx, <- Vxy. field. lra. }
  rewrite R2. unfold LOG2PI. field. lra.
Qed.
Print Assumptions C70_density.

(** *** Normalisation *)
Lemma binormal_x (a b c r t : R) : 0 < a -> 0 < a * b - c * c ->
  whole (fun x => binormal a b c r (x - t)) (normal 0 (sqrt a) r).
Proof.
  intros A D. set (det := a * b - c * c) in *. assert (SD := sqrt_lt_R0 det D). assert (SA := sqrt_lt_R0 a A). assert (PP := PI_RGT_0).
  assert (SP : 0 < sqrt (2 * PI)) by (apply sqrt_lt_R0; lra). assert (P2 : sqrt (2 * PI) * sqrt (2 * PI) = 2 * PI) by (apply sqrt_sqrt; lra).
  assert (A2 : sqrt a * sqrt a = a) by (apply sqrt_sqrt; lra). assert (D2 : sqrt det * sqrt det = det) by (apply sqrt_sqrt; lra).
  assert (H := whole_gauss (exp (- (r * r / a) / 2) / (2 * PI * sqrt det)) a (- (a * t) - c * r) (sqrt a * sqrt det) A (Rmult_lt_0_compat _ _ SA SD)).
  replace (exp (- (r * r / a) / 2) / (2 * PI * sqrt det) * (sqrt a * sqrt det * sqrt (2 * PI) / a)) with (normal 0 (sqrt a) r) in H.
  - revert H. apply whole_ext. intro x. unfold binormal. fold det.
    transitivity (exp (- (r * r / a) / 2) * exp (- ((a * x + (- (a * t) - c * r)) / (sqrt a * sqrt det) * ((a * x + (- (a * t) - c * r)) / (sqrt a * sqrt det))) / 2) / (2 * PI * sqrt det)); [unfold Rdiv; ring|].
    rewrite <- exp_plus. f_equal. f_equal.
    assert (Z : forall m : R, m / (sqrt a * sqrt det) * (m / (sqrt a * sqrt det)) = m * m / (a * det)).
    { intro m. transitivity (m * m / (sqrt a * sqrt a * (sqrt det * sqrt det))); [field; lra | rewrite A2, D2; reflexivity]. }
    rewrite Z.
    assert (Q : b = (det + c * c) / a) by (unfold det; field; lra). rewrite Q. field. lra.
  - unfold normal. rewrite Rminus_0_r. assert (Z : r / sqrt a * (r / sqrt a) = r * r / a) by (transitivity (r * r / (sqrt a * sqrt a)); [field; lra | rewrite A2; reflexivity]). rewrite Z.
    set (e := exp (- (r * r / a) / 2)). transitivity (e / (sqrt (2 * PI) * sqrt (2 * PI) * sqrt det) * (sqrt a * sqrt det * sqrt (2 * PI) / (sqrt a * sqrt a))); [field; lra | rewrite A2, P2; reflexivity].
Qed.

(** The likelihood of the point i as a function of its data. *)
Definition likelihood np f d g X Y arg pars u s i (x y : R) : R :=
  exp (nth i (logLdata (mkProblem np f d g (upd i x X) (upd i y Y) None arg) (pars ++ u) s) 0).

(** The likelihood of one data point, a pair (x,y), is not a probability density: integrated over x and y it is the square root of 2 pi.
    logLdata has one LOG2PI where two dimensions ask for two (Gauss2dErrorDistribution.py:170; 142, 144 and 146 too). *)
Theorem C70_normalisation_refuted : forall np f d g X Y arg pars u s i, notScalar arg -> length pars = np ->
  length X = length u -> length Y = length u -> (i < length u)%nat ->
  let '(vyy, vxx, vxy) := covOf arg i in
  0 < vyy + s * s -> 0 < (vyy + s * s) * (vxx + s * s) - vxy * vxy ->
  exists h, (forall y, whole (fun x => likelihood np f d g X Y arg pars u s i x y) (h y)) /\
    whole h (sqrt (2 * PI)) /\ sqrt (2 * PI) > 1.
Proof.
  intros np f d g X Y arg pars u s i N L LX LY I.
  assert (K := fun x y => C70_density np f d g (upd i x X) (upd i y Y) None arg pars u s i x y (nth i u 0) N L).
  destruct (covOf arg i) as [[vyy vxx] vxy] eqn:C. intros A D. assert (PP := PI_RGT_0).
  assert (SP : 0 < sqrt (2 * PI)) by (apply sqrt_lt_R0; lra).
  assert (SA : 0 < sqrt (vyy + s * s)) by now apply sqrt_lt_R0.
  assert (SD := sqrt_lt_R0 _ D).
  assert (E : forall x y, likelihood np f d g X Y arg pars u s i x y = sqrt (2 * PI) * binormal (vyy + s * s) (vxx + s * s) vxy (y - f (nth i u 0) pars) (x - nth i u 0)).
  { intros x y. unfold likelihood.
    assert (NU : forall (v : R) l, length l = length u -> nth_error (upd i v l) i = Some v).
    { intros v l Hl. rewrite (nth_error_nth' _ 0) by (rewrite upd_length; lia). f_equal. rewrite upd_nth_d, Nat.eqb_refl. cbn [andb].
      replace (i <? length l)%nat with true; [reflexivity|]. symmetry. apply Nat.ltb_lt. lia. }
    specialize (K x y). cbv zeta in K. rewrite (nth_error_nth _ _ _ (K ltac:(rewrite upd_length; exact LX) ltac:(rewrite upd_length; exact LY) (NU x X LX) (NU y Y LY) ltac:(now apply nth_error_nth') D)).
    unfold wgt. cbn [q_w mkProblem]. rewrite Rmult_1_l, exp_plus, exp_ln.
    2:{ unfold binormal. apply Rdiv_lt_0_compat; [apply exp_pos|]. apply Rmult_lt_0_compat; lra. }
    rewrite Rmult_comm. f_equal. rewrite <- Rpower_sqrt by lra. unfold Rpower. f_equal. field. }
  exists (fun y => sqrt (2 * PI) * normal 0 (sqrt (vyy + s * s)) (y - f (nth i u 0) pars)). repeat split.
  - intro y. apply (whole_ext (fun x => sqrt (2 * PI) * binormal (vyy + s * s) (vxx + s * s) vxy (y - f (nth i u 0) pars) (x - nth i u 0))); [intro; now rewrite E|].
    apply whole_scal. now apply binormal_x.
  - set (m := f (nth i u 0) pars). set (v := sqrt (vyy + s * s)) in *.
    assert (H := whole_gauss (/ v) 1 (- m) v ltac:(lra) SA). replace (/ v * (v * sqrt (2 * PI) / 1)) with (sqrt (2 * PI)) in H by (field; lra).
    revert H. apply whole_ext. intro y. unfold normal. rewrite Rminus_0_r. replace (1 * y + - m) with (y - m) by ring. field. lra.
  - rewrite <- sqrt_1. apply sqrt_lt_1; generalize PI2_1; lra.
Qed.
Print Assumptions C70_normalisation_refuted.

(** *** Partial derivatives *)
Theorem C70_scale : forall np f d g X Y w arg pars u s i, length pars = np -> length X = length u -> length Y = length u -> (i < length u)%nat ->
  let p := mkProblem np f d g X Y w arg in 0 < updateDet p s i ->
  is_derive (fun s => nth i (logLdata p (pars ++ u) s) 0) s (nth i (partialScale p (pars ++ u) s) 0).
Proof.
  intros np f d g X Y w arg pars u s i L LX LY I p D.
  apply (is_derive_ext (fun s => term np f d g X Y w arg s i pars (nth i u 0))); [intro t; unfold p; symmetry; apply logLdata_nth; assumption|].
  unfold partialScale. rewrite (enum_map_nth _ _ i (0, 0)) by (unfold p; rewrite xyres_length; assumption). cbn [fst snd].
  unfold p at 1. rewrite xyres_at by assumption. unfold term. fold p. cbv zeta.
  set (y := nth i Y 0 - f (nth i u 0) pars). set (x := nth i X 0 - nth i u 0).
  unfold res2, invItems, updateDet, extra2 in *. cbv zeta in *.
  set (vy := varyy (q_store p) i) in *. set (vx := varxx (q_store p) i) in *. set (vxy := varxy (q_store p) i) in *. set (q := q_det p i) in *. set (wt := wgt p i) in *.
  clearbody vy vx vxy q wt x y. assert (D' : 0 < q + s * s * (vy + vx + s * s)) by (replace (vy + vx) with (vx + vy) by ring; exact D).
  auto_derive; [repeat split; lra|]. match goal with |- ?a = ?b => change (@eq R a b) end. replace (vy + vx) with (vx + vy) by ring. field. lra.
Qed.
Print Assumptions C70_scale.

Lemma sum_derive2 n (h : nat -> R -> R) (e : nat -> R) (x : R) : (forall i, (i < n)%nat -> is_derive (h i) x (e i)) -> is_derive (fun t : R => sum n (fun i => h i t)) x (sum n e).
Proof.
  induction n as [|n IH]; intro H; cbn [sum]; [apply (is_derive_const (K := R_AbsRing) (V := R_NormedModule) 0 x)|].
  apply (is_derive_plus (V := R_NormedModule) (fun t => sum n (fun i => h i t)) (h n)); [apply IH; intros i Hi; apply H; lia | apply H; lia].
Qed.

(** the sum of the items of nextPartialData *)
Lemma partialPar_sum np f d g X Y w arg pars u s k : length pars = np -> length X = length u -> length Y = length u -> (forall t a, length (g t a) = np) ->
  let p := mkProblem np f d g X Y w arg in
  let ry i := nth i Y 0 - f (nth i u 0) pars in let rx i := nth i X 0 - nth i u 0 in
  total (partialPar p (pars ++ u) s k) =
  sum (length u) (fun i => extraY p i s (ry i) (rx i) * nth k (nth i (partial p (pars ++ u)) []) 0) +
  sum (length u) (fun i => extraX p i s (ry i) (rx i) * nth k (nth (length u + i) (partial p (pars ++ u)) []) 0).
Proof.
  intros L LX LY G p ry rx. assert (LL : length (xyres p (pars ++ u)) = length u) by (unfold p; now apply xyres_length).
  destruct (C42_partial_matrix p pars u L G) as (LP & _ & _).
  assert (LE : length (resExtra p (pars ++ u) s) = (length u + length u)%nat) by (unfold resExtra; rewrite app_length, !map_length, enum_length; lia).
  unfold partialPar. rewrite total_sum, map_length, combine_length, LE, LP. replace (Nat.min (length u + length u) (2 * length u)) with (length u + length u)%nat by lia.
  assert (E : forall j, (j < length u + length u)%nat -> nth j (map (fun t : R * list R => fst t * nth k (snd t) 0) (combine (resExtra p (pars ++ u) s) (partial p (pars ++ u)))) 0
    = nth j (resExtra p (pars ++ u) s) 0 * nth k (nth j (partial p (pars ++ u)) []) 0).
  { intros j J. rewrite (nth_indep _ 0 ((fun t : R * list R => fst t * nth k (snd t) 0) (0, []))) by (rewrite map_length, combine_length; lia).
    rewrite (map_nth (fun t : R * list R => fst t * nth k (snd t) 0)), combine_nth by lia. reflexivity. }
  rewrite sum_app. apply (f_equal2 Rplus); apply sum_ext; intros i I; rewrite E by lia; f_equal; unfold resExtra.
  - rewrite app_nth1 by (rewrite map_length, enum_length; lia). rewrite (enum_map_nth _ _ i (0, 0)) by lia. cbn [fst snd].
    unfold p at 2 3. rewrite xyres_at by assumption. reflexivity.
  - rewrite app_nth2 by (rewrite map_length, enum_length; lia). rewrite map_length, enum_length, LL. replace (length u + i - length u)%nat with i by lia.
    rewrite (enum_map_nth _ _ i (0, 0)) by lia. cbn [fst snd]. unfold p at 2 3. rewrite xyres_at by assumption. reflexivity.
Qed.

Lemma term_derive np (f : R -> list R -> R) d g X Y w arg s i (parst : R -> list R) (ut : R -> R) (z dy du : R) :
  is_derive (fun t : R => f (ut t) (parst t)) z dy -> is_derive ut z du ->
  let p := mkProblem np f d g X Y w arg in
  let y := nth i Y 0 - f (ut z) (parst z) in let x := nth i X 0 - ut z in
  is_derive (fun t : R => term np f d g X Y w arg s i (parst t) (ut t)) z (extraY p i s y x * dy + extraX p i s y x * du).
Proof.
  intros DY DU p y x. unfold term. fold p. unfold res2, extraY, extraX. destruct (invItems p i s) as [[myy mxx] mxy].
  set (F := fun t : R => f (ut t) (parst t)) in *. change (is_derive (fun t : R => - (1 / 2) * ((LOG2PI + ln (updateDet p s i)) * wgt p i +
    ((nth i X 0 - ut t) * (nth i X 0 - ut t) * mxx + (nth i Y 0 - F t) * (nth i Y 0 - F t) * myy + 2 * ((nth i X 0 - ut t) * (nth i Y 0 - F t) * mxy)) * wgt p i)) z
    ((y * myy + x * mxy) * wgt p i * dy + (x * mxx + y * mxy) * wgt p i * du)).
  generalize (LOG2PI + ln (updateDet p s i)) (wgt p i). intros c wt. subst y x. change (f (ut z) (parst z)) with (F z). clearbody F.
  auto_derive; [repeat split; first [exists du; exact DU | exists dy; exact DY]|].
  replace (Derive (fun x : R => ut x) z) with du by (symmetry; apply is_derive_unique; exact DU).
  replace (Derive (fun x : R => F x) z) with dy by (symmetry; apply is_derive_unique; exact DY). field.
Qed.

(** The items of a parameter of the model, and of a target, add up to the derivative of the log-likelihood. *)
Theorem C70_parameters : forall np (f d : R -> list R -> R) g X Y w arg pars u s, length pars = np -> length X = length u -> length Y = length u -> (forall t a, length (g t a) = np) ->
  (forall t k, (k < np)%nat -> is_derive (fun z : R => f t (upd k z pars)) (nth k pars 0) (nth k (g t pars) 0)) ->
  (forall t : R, is_derive (fun z : R => f z pars) t (d t pars)) ->
  let p := mkProblem np f d g X Y w arg in
  forall k, (k < np + length u)%nat ->
  is_derive (fun z : R => total (logLdata p (upd k z (pars ++ u)) s)) (nth k (pars ++ u) 0) (total (partialPar p (pars ++ u) s k)).
Proof.
  intros np f d g X Y w arg pars u s L LX LY G DF DX p k K. unfold p. rewrite partialPar_sum by assumption. cbv zeta. fold p.
  destruct (C42_partial_matrix p pars u L G) as (_ & TOP & BOT).
  assert (UA : forall (z : R) (l m : list R) j, (j < length l)%nat -> upd j z (l ++ m) = upd j z l ++ m).
  { intros z l m. induction l as [|a l IH]; intros [|j] J; cbn in *; try lia; [reflexivity|]. now rewrite IH by lia. }
  assert (UB : forall (z : R) (l m : list R) j, upd (length l + j) z (l ++ m) = l ++ upd j z m).
  { intros z l m j. induction l as [|a l IH]; [reflexivity|]. cbn. now rewrite IH. }
  destruct (lt_dec k np) as [KN|KN].
  - rewrite app_nth1 by lia.
    apply (is_derive_ext (fun z => sum (length u) (fun i => term np f d g X Y w arg s i (upd k z pars) (nth i u 0)))).
    { intro z. rewrite UA by lia. unfold p. symmetry. apply logL_sum; [rewrite upd_length; exact L | exact LX | exact LY]. }
    rewrite <- sum_plus. apply sum_derive2. intros i I.
    destruct (TOP i (nth i u 0) (nth_error_nth' u 0 I)) as (row & R1 & _ & R2 & _). destruct (BOT i I) as (row' & R3 & _ & R4 & _).
    rewrite (nth_error_nth _ _ _ R1), (nth_error_nth _ _ _ R3), R2, R4 by exact KN.
    assert (T := term_derive np f d g X Y w arg s i (fun z => upd k z pars) (fun _ => nth i u 0) (nth k pars 0) _ 0 (DF (nth i u 0) k KN) (is_derive_const (K := R_AbsRing) (V := R_NormedModule) (nth i u 0) (nth k pars 0))).
    cbv beta zeta in T. fold p in T. rewrite (P_Errdis.upd_nth_id pars k 0) in T. exact T.
  - assert (J : exists j, k = (length pars + j)%nat /\ (j < length u)%nat) by (exists (k - np)%nat; lia). destruct J as (j & -> & J).
    rewrite app_nth2 by lia. replace (length pars + j - length pars)%nat with j by lia.
    apply (is_derive_ext (fun z => sum (length u) (fun i => term np f d g X Y w arg s i pars (nth i (upd j z u) 0)))).
    { intro z. rewrite UB. unfold p. rewrite logL_sum by (rewrite ?upd_length; assumption). rewrite upd_length. reflexivity. }
    rewrite <- sum_plus. apply sum_derive2. intros i I.
    destruct (TOP i (nth i u 0) (nth_error_nth' u 0 I)) as (row & R1 & _ & _ & R2). destruct (BOT i I) as (row' & R3 & _ & _ & R4).
    rewrite (nth_error_nth _ _ _ R1), (nth_error_nth _ _ _ R3). replace (length pars + j)%nat with (q_np p + j)%nat by (rewrite L; reflexivity). rewrite R2, R4 by exact J.
    assert (T : is_derive (fun z : R => nth i (upd j z u) 0) (nth j u 0) (if (j =? i)%nat then 1 else 0)).
    { destruct (j =? i)%nat eqn:E.
      - apply Nat.eqb_eq in E. subst i. apply (is_derive_ext (fun z : R => z)); [|apply (is_derive_id (K := R_AbsRing))].
        intro z. rewrite upd_nth_d, Nat.eqb_refl. replace (j <? length u)%nat with true by (symmetry; apply Nat.ltb_lt; exact J). reflexivity.
      - apply (is_derive_ext (fun z : R => nth i u 0)); [|apply (is_derive_const (K := R_AbsRing) (V := R_NormedModule))].
        intro z. rewrite upd_nth_d, (Nat.eqb_sym i j), E. reflexivity. }
    assert (V : nth i (upd j (nth j u 0) u) 0 = nth i u 0) by (rewrite (P_Errdis.upd_nth_id u j 0); reflexivity).
    assert (W : is_derive (fun z : R => f (nth i (upd j z u) 0) pars) (nth j u 0) (if (j =? i)%nat then d (nth i u 0) pars else 0)).
    { assert (C := is_derive_comp (K := R_AbsRing) (V := R_NormedModule) (fun z : R => f z pars) (fun z : R => nth i (upd j z u) 0) (nth j u 0) (d (nth i u 0) pars) (if (j =? i)%nat then 1 else 0)).
      cbv beta in C. rewrite V in C. specialize (C (DX (nth i u 0)) T). evar_last; [exact C|]. unfold scal; cbn; unfold mult; cbn. destruct (j =? i)%nat; ring. }
    assert (Q := term_derive np f d g X Y w arg s i (fun _ => pars) (fun z => nth i (upd j z u) 0) (nth j u 0) _ _ W T).
    cbv beta zeta in Q. fold p in Q. rewrite V in Q. exact Q.
Qed.
Print Assumptions C70_parameters.

(** *** The alternative *)
Lemma sum_const n (c : R) : sum n (fun _ => c) = INR n * c.
Proof. induction n as [|n IH]; [cbn; ring|]. cbn [sum]. rewrite IH, S_INR. ring. Qed.

Theorem C70_alternative : forall np f d g X Y arg pars u s, length pars = np -> length X = length u -> length Y = length u ->
  let p := mkProblem np f d g X Y None arg in
  logLalt p (pars ++ u) s = Num (total (logLdata p (pars ++ u) s)).
Proof.
  intros np f d g X Y arg pars u s L LX LY p. unfold logLalt. cbn [q_w p mkProblem]. unfold p at 1. cbn [q_w mkProblem]. f_equal.
  unfold p. rewrite logL_sum by assumption. fold p.
  assert (C : total (weightedResSq p (pars ++ u) s) = sum (length u) (fun i => res2 p i s (nth i Y 0 - f (nth i u 0) pars) (nth i X 0 - nth i u 0))).
  { assert (LL : length (xyres p (pars ++ u)) = length u) by (unfold p; now apply xyres_length).
    rewrite total_sum. unfold weightedResSq. rewrite map_length, combine_length, seq_length, LL. replace (Nat.min (length u) (length u)) with (length u) by lia.
    apply sum_ext. intros i I. rewrite <- LL. change (combine (seq 0 (length (xyres p (pars ++ u)))) (xyres p (pars ++ u))) with (enum (xyres p (pars ++ u))).
    rewrite (enum_map_nth _ _ i (0, 0)) by lia. cbn [fst snd]. unfold p at 2 3. rewrite xyres_at by assumption. cbn [fst snd]. unfold wgt. cbn [q_w p mkProblem]. unfold p; cbn [q_w mkProblem]. ring. }
  assert (Nm : (if oneDet (q_store p) then INR (length (q_x p)) * (LOG2PI + ln (updateDet p s 0)) else INR (length (q_x p)) * LOG2PI + total (map (fun i => ln (updateDet p s i)) (seq 0 (length (q_x p)))))
     = sum (length u) (fun i => LOG2PI + ln (updateDet p s i))).
  { change (q_x p) with X. rewrite LX. destruct (oneDet (q_store p)) eqn:O.
    - assert (U : forall i, updateDet p s i = updateDet p s 0).
      { intro i. unfold updateDet. cbn [q_det q_store p mkProblem] in *. unfold p in *. cbn [q_det q_store mkProblem] in *. unfold detOf. destruct (setAcc arg); try discriminate O; reflexivity. }
      rewrite (sum_ext _ (fun i => LOG2PI + ln (updateDet p s i)) (fun _ => LOG2PI + ln (updateDet p s 0))) by (intros; now rewrite U).
      symmetry. apply sum_const.
    - rewrite total_sum, map_length, seq_length. rewrite sum_plus. f_equal.
      + symmetry. apply sum_const.
      + apply sum_ext. intros i I. rewrite (nth_indep _ 0 ((fun i => ln (updateDet p s i)) 0%nat)) by (rewrite map_length, seq_length; exact I).
        rewrite (map_nth (fun i => ln (updateDet p s i))), seq_nth by exact I. reflexivity. }
  rewrite C, Nm, <- sum_plus, <- sum_scal. apply sum_ext. intros i I. unfold term. fold p. unfold wgt, p. cbn [q_w mkProblem]. ring.
Qed.
Print Assumptions C70_alternative.

(** With weights the alternative refers to a name that is not defined (146). *)
Theorem C70_alternative_refuted : forall p param s, q_w p <> None -> logLalt p param s = NameError.
Proof. intros p param s H. unfold logLalt. destruct (q_w p); [reflexivity | now contradict H]. Qed.
Print Assumptions C70_alternative_refuted.

(** A line through the origin, two points with errors that are correlated. *)
Example C70_example : let p := mkProblem 1 (fun x a => nth 0 a 0 * x) (fun x a => nth 0 a 0) (fun x a => [x]) [1; 2] [3; 5] None (Acc3 2 1 (1/2)) in
  covOf (Acc3 2 1 (1/2)) 1 = (4, 1, 1) /\ updateDet p 1 1 = 9 /\
  logLdata p ([2] ++ [1; 2]) 1 = [- (1 / 2) * (LOG2PI + ln 9 + 2 / 9); - (1 / 2) * (LOG2PI + ln 9 + 2 / 9)] /\
  partialPar p ([2] ++ [1; 2]) 1 0 = [2 / 9 * 1; 2 / 9 * 2; -1 / 9 * 0; -1 / 9 * 0].
Proof.
  cbv zeta. unfold logLdata, partialPar, resExtra, partialPar, updateDet, res2, invItems, weightedResSq, xyres, extraY, extraX, res2, invItems, wgt, detOf. cbn. unfold detOf. cbn.
  repeat split.
  - replace (2 * 1 * (1 / 2)) with 1 by field. replace (2 * 2) with 4 by ring. replace (1 * 1) with 1 by ring. reflexivity.
  - field.
  - assert (N : 2 * 2 * (1 * 1) - 1 / 2 * (2 * 1) * (1 / 2 * (2 * 1)) + 1 * 1 * (1 * 1 + 2 * 2 + 1 * 1) = 9) by field.
    assert (N' : 2 * 2 * (1 * 1) - 1 / 2 * (2 * 1) * (1 / 2 * (2 * 1)) + 1 * 1 * (2 * 2 + 1 * 1 + 1 * 1) = 9) by field. rewrite N, N'.
    apply (f_equal2 cons); [field|]. apply (f_equal2 cons); [field | reflexivity].
  - apply (f_equal2 cons); [field|]. apply (f_equal2 cons); [field|]. apply (f_equal2 cons); [field|]. apply (f_equal2 cons); [field | reflexivity].
Qed.
