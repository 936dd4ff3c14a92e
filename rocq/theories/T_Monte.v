(** Theorems C68: confidence regions. *)
From Coq Require Import List Arith ZArith Reals Bool Lia Lra Psatz.
From Verif Require Import L_List L_Sum M_Fitter S_Fitter P_Fitter M_Monte.
Import ListNotations.
Local Open Scope R_scope.

(** numpy.linalg.eigh of a symmetric matrix: orthonormal columns, which diagonalise it *)
Definition eigen (n : nat) (C : mat) (val : vec) (V : mat) : Prop :=
  (forall k l, (k < n)%nat -> (l < n)%nat -> sum n (fun i => V i k * V i l) = delta k l) /\
  (forall i j, (i < n)%nat -> (j < n)%nat -> sum n (fun k => V i k * (val k * V j k)) = C i j).
(** a covariance matrix: no direction has a negative variance *)
Definition psd (n : nat) (C : mat) : Prop := forall d : vec, 0 <= sum n (fun i => sum n (fun j => d i * (C i j * d j))).

Lemma eigen_sq n C val V d : eigen n C val V -> sum n (fun i => sum n (fun j => d i * (C i j * d j))) = sum n (fun k => val k * (sum n (fun i => d i * V i k)) ^ 2).
Proof.
  intros [_ E]. transitivity (sum n (fun i => sum n (fun j => sum n (fun k => val k * ((d i * V i k) * (d j * V j k)))))).
  - apply sum_ext. intros i Hi. apply sum_ext. intros j Hj. rewrite <- (E i j Hi Hj). rewrite <- sum_scal_r, <- sum_scal. apply sum_ext. intros. ring.
  - rewrite (sum_ext n _ (fun i => sum n (fun k => sum n (fun j => val k * (d i * V i k * (d j * V j k)))))) by (intros; apply (sum_swap n n)).
    rewrite (sum_swap n n). apply sum_ext. intros k Hk. cbn [pow]. rewrite Rmult_1_r.
    rewrite (sum_ext n _ (fun i => d i * V i k * (val k * sum n (fun j => d j * V j k)))) by (intros; rewrite <- !sum_scal; apply sum_ext; intros; ring).
    rewrite sum_scal_r. ring.
Qed.
Lemma eigen_nonneg n C val V k : eigen n C val V -> psd n C -> (k < n)%nat -> 0 <= val k.
Proof.
  intros E P Hk. pose proof (P (fun i => V i k)) as Q. rewrite (eigen_sq n C val V _ E) in Q. rewrite (sum_one n k) in Q.
  - destruct E as [O _]. rewrite (O k k Hk Hk) in Q. unfold delta in Q. rewrite Nat.eqb_refl in Q. lra.
  - exact Hk.
  - intros l Hl N. destruct E as [O _]. rewrite (O k l Hk Hl). unfold delta. destruct (Nat.eqb_spec k l); [subst; contradiction|]. ring.
Qed.

Section Carlo.
  Context {X : Type} (np : nat) (result : X -> vec -> vec).

  (** The deviations are those of the covariance matrix: the factor times its transpose is the covariance. *)
  Theorem C68_factor eigh C index mcycles n : eigen n C (fst (eigh C)) (snd (eigh C)) -> psd n C ->
    let c := make eigh C index mcycles in forall i j, (i < n)%nat -> (j < n)%nat ->
    sum n (fun k => (c_vec c i k * c_root c k) * (c_vec c j k * c_root c k)) = C i j.
  Proof.
    unfold make. destruct (eigh C) as [val V]. cbn. intros E0 P i j Hi Hj. pose proof E0 as [O E]. rewrite <- (E i j Hi Hj). apply sum_ext. intros k Hk.
    pose proof (eigen_nonneg n C val V k E0 P Hk) as N. replace (V i k * sqrt (val k) * (V j k * sqrt (val k))) with (V i k * V j k * (sqrt (val k) * sqrt (val k))) by ring. rewrite sqrt_sqrt by exact N. ring.
  Qed.

  (** The parameters tried: the fitted ones get a deviation, the others none. *)
  Theorem C68_variant c parameters z j : (match c_index c with None => True | Some index => NoDup index end) ->
    match c_index c with
    | None => variant np c parameters z j = parameters j + sum np (fun k => c_vec c j k * c_root c k * z k)
    | Some index => (~ In j index -> variant np c parameters z j = parameters j) /\
        ((j < length index)%nat -> variant np c parameters z (nth j index 0%nat) = parameters (nth j index 0%nat) + sum (length index) (fun k => c_vec c j k * c_root c k * z k))
    end.
  Proof.
    intro N. unfold variant. destruct (c_index c) as [index|].
    - split; [intro H; apply place_out, H|]. intro H. rewrite place_in by assumption. cbn [Nat.add]. f_equal. apply sum_ext. intros. ring.
    - f_equal. apply sum_ext. intros. ring.
  Qed.

  Lemma sum_const c n : sum n (fun _ => c) = INR n * c.
  Proof. induction n as [|n IH]; cbn [sum]; [cbn; ring|]. rewrite IH, S_INR. ring. Qed.
  Lemma variance n (v : nat -> R) : (0 < n)%nat -> let mean := sum n v / INR n in
    sum n (fun k => v k ^ 2) / INR n - mean * mean = sum n (fun k => (v k - mean) ^ 2) / INR n.
  Proof.
    intros H mean. assert (P : INR n <> 0) by (apply not_0_INR; lia).
    rewrite (sum_ext n (fun k => (v k - mean) ^ 2) (fun k => v k ^ 2 + ((- 2 * mean) * v k + mean ^ 2))) by (intros; ring). rewrite !sum_plus, sum_scal.
    rewrite sum_const. assert (Q2 : sum n v = INR n * mean) by (unfold mean; field; exact P). rewrite Q2. field. exact P.
  Qed.

  (** Any model: the error is the standard deviation of the results tried. *)
  Theorem C68_error c parameters x z i : (0 < c_cycles c)%nat ->
    let v := fun k => randomVariant np result c parameters x (z k) i in let n := c_cycles c in let mean := sum n v / INR n in
    0 <= getError np result c parameters x z i /\ getError np result c parameters x z i ^ 2 = sum n (fun k => (v k - mean) ^ 2) / INR n.
  Proof.
    intros H v n mean. split; [apply sqrt_pos|]. pose proof (variance n v H) as E. cbv zeta in E. fold mean in E.
    assert (G : getError np result c parameters x z i = sqrt (sum n (fun k => v k ^ 2) / INR n - mean * mean)) by reflexivity. rewrite G, E. rewrite pow2_sqrt; [reflexivity|].
    apply Rmult_le_pos; [apply sum_nonneg; intros; apply pow2_ge_0|]. left. apply Rinv_0_lt_compat, lt_0_INR. exact H.
  Qed.

  (** ** A model linear in its fitted parameters *)
  Definition linear_in (index : list nat) (x : X) (i : nat) (d : vec) : Prop :=
    forall p q, (forall j, ~ In j index -> p j = q j) -> result x p i - result x q i = sum (length index) (fun k => d k * (p (nth k index 0%nat) - q (nth k index 0%nat))).
  (** the mean and the covariance of the random numbers drawn *)
  Definition zmean (n : nat) (z : nat -> vec) (k : nat) : R := sum n (fun t => z t k) / INR n.
  Definition zcov (n : nat) (z : nat -> vec) (k l : nat) : R := sum n (fun t => (z t k - zmean n z k) * (z t l - zmean n z l)) / INR n.

  Lemma lin_variant c parameters index x i d z : c_index c = Some index -> NoDup index -> linear_in index x i d ->
    randomVariant np result c parameters x z i = result x parameters i + sum (length index) (fun k => (c_root c k * sum (length index) (fun j => d j * c_vec c j k)) * z k).
  Proof.
    intros EI ND L. pose proof (L (variant np c parameters z) parameters) as E. unfold randomVariant.
    assert (H : forall j, ~ In j index -> variant np c parameters z j = parameters j).
    { intros j Hj. pose proof (C68_variant c parameters z j) as V. rewrite EI in V. exact (proj1 (V ND) Hj). }
    specialize (E H). rewrite (sum_ext (length index) _ (fun j => sum (length index) (fun k => d j * c_vec c j k * (c_root c k * z k)))) in E.
    2:{ intros j Hj. pose proof (C68_variant c parameters z j) as V. rewrite EI in V. rewrite (proj2 (V ND) Hj).
        replace (parameters (nth j index 0%nat) + sum (length index) (fun k => c_vec c j k * c_root c k * z k) - parameters (nth j index 0%nat)) with (sum (length index) (fun k => c_vec c j k * c_root c k * z k)) by ring.
        rewrite <- sum_scal. apply sum_ext. intros. ring. }
    rewrite (sum_swap (length index) (length index)) in E. rewrite (sum_ext (length index) (fun k => c_root c k * _ * z k) (fun k => sum (length index) (fun j => d j * c_vec c j k * (c_root c k * z k)))).
    - lra.
    - intros k Hk. rewrite sum_scal_r. ring.
  Qed.

  Lemma sum_sq n (f : nat -> R) : sum n f ^ 2 = sum n (fun k => sum n (fun l => f k * f l)).
  Proof. cbn [pow]. rewrite Rmult_1_r. rewrite <- sum_scal_r. apply sum_ext. intros. rewrite <- sum_scal. reflexivity. Qed.
  Lemma sum_div n (f : nat -> R) c : sum n (fun k => f k / c) = sum n f / c.
  Proof. unfold Rdiv. apply sum_scal_r. Qed.

  (** The square of the error is the quadratic form of the covariance of the draws. *)
  Theorem C68_linear c parameters index x i d z : c_index c = Some index -> NoDup index -> linear_in index x i d -> (0 < c_cycles c)%nat ->
    let n := length index in let a := fun k => c_root c k * sum n (fun j => d j * c_vec c j k) in
    getError np result c parameters x z i ^ 2 = sum n (fun k => sum n (fun l => a k * a l * zcov (c_cycles c) z k l)).
  Proof.
    intros EI ND L H n a. rewrite (proj2 (C68_error c parameters x z i H)). set (N := c_cycles c) in *. assert (P : INR N <> 0) by (apply not_0_INR; lia).
    assert (V : forall t, randomVariant np result c parameters x (z t) i = result x parameters i + sum n (fun k => a k * z t k)) by (intro t; apply (lin_variant c parameters index x i d (z t) EI ND L)).
    assert (M : sum N (fun t => randomVariant np result c parameters x (z t) i) / INR N = result x parameters i + sum n (fun k => a k * zmean N z k)).
    { rewrite (sum_ext N _ (fun t => result x parameters i + sum n (fun k => a k * z t k))) by (intros; apply V). rewrite sum_plus, (sum_swap N n).
      rewrite sum_const. rewrite (sum_ext n (fun k => a k * zmean N z k) (fun k => sum N (fun t => a k * z t k) / INR N)) by (intros; unfold zmean; rewrite sum_scal; unfold Rdiv; ring). rewrite sum_div. field. exact P. }
    rewrite M. rewrite (sum_ext N _ (fun t => sum n (fun k => sum n (fun l => a k * a l * ((z t k - zmean N z k) * (z t l - zmean N z l)))))).
    - rewrite (sum_swap N n). rewrite <- sum_div. apply sum_ext. intros k Hk. rewrite (sum_swap N n). rewrite <- sum_div. apply sum_ext. intros l Hl. rewrite sum_scal. unfold zcov, Rdiv. ring.
    - intros t Ht. rewrite V. replace (result x parameters i + sum n (fun k => a k * z t k) - (result x parameters i + sum n (fun k => a k * zmean N z k))) with (sum n (fun k => a k * (z t k - zmean N z k))).
      + rewrite sum_sq. apply sum_ext. intros. apply sum_ext. intros. ring.
      + rewrite (sum_ext n _ (fun k => a k * z t k - a k * zmean N z k)) by (intros; ring). rewrite sum_minus. ring.
  Qed.

  (** With draws of unit covariance it is the variance that the covariance matrix gives to the result. *)
  Theorem C68_covariance eigh C mcycles parameters index x i d z : NoDup index -> linear_in index x i d -> (0 < mcycles)%nat ->
    let n := length index in eigen n C (fst (eigh C)) (snd (eigh C)) -> psd n C -> (forall k l, (k < n)%nat -> (l < n)%nat -> zcov mcycles z k l = delta k l) ->
    getError np result (make eigh C (Some index) mcycles) parameters x z i ^ 2 = sum n (fun j => sum n (fun l => d j * (C j l * d l))).
  Proof.
    intros ND L H n E P Z. unfold make. destruct (eigh C) as [val V] eqn:EV. cbn [fst snd] in E.
    rewrite (C68_linear (mkC V (fun k => sqrt (val k)) (Some index) mcycles) parameters index x i d z eq_refl ND L H). fold n. cbn [c_root c_vec c_cycles].
    rewrite (eigen_sq n C val V d E). apply sum_ext. intros k Hk. rewrite (sum_one n k).
    - rewrite (Z k k Hk Hk). unfold delta. rewrite Nat.eqb_refl. pose proof (eigen_nonneg n C val V k E P Hk) as N. cbn [pow]. rewrite !Rmult_1_r.
      set (b := sum n (fun j => d j * V j k)). replace (sqrt (val k) * b * (sqrt (val k) * b)) with (sqrt (val k) * sqrt (val k) * (b * b)) by ring. rewrite sqrt_sqrt by exact N. ring.
    - exact Hk.
    - intros l Hl N. rewrite (Z k l Hk Hl). unfold delta. destruct (Nat.eqb_spec k l); [subst; contradiction|]. ring.
  Qed.

  (** Where the result does not depend on the fitted parameters the error is zero. *)
  Theorem C68_zero c parameters x z i : (0 < c_cycles c)%nat -> (forall p q, (forall j, match c_index c with None => False | Some index => ~ In j index end -> p j = q j) -> result x p i = result x q i) ->
    (match c_index c with None => True | Some index => NoDup index end) -> getError np result c parameters x z i = 0.
  Proof.
    intros H D ND. assert (V : forall k, randomVariant np result c parameters x (z k) i = result x parameters i).
    { intro k. apply D. intros j Hj. pose proof (C68_variant c parameters (z k) j ND) as Q. destruct (c_index c); [|destruct Hj]. exact (proj1 Q Hj). }
    destruct (C68_error c parameters x z i H) as [A B]. cbv zeta in B. set (e := getError np result c parameters x z i) in *.
    assert (Z : e ^ 2 = 0); [|apply Rsqr_0_uniq; unfold Rsqr; cbn in Z; rewrite Rmult_1_r in Z; exact Z]. rewrite B.
    assert (P : INR (c_cycles c) <> 0) by (apply not_0_INR; lia).
    assert (M : sum (c_cycles c) (fun k => randomVariant np result c parameters x (z k) i) / INR (c_cycles c) = result x parameters i).
    { rewrite (sum_ext _ _ (fun _ => result x parameters i)) by (intros; apply V). rewrite sum_const. field. exact P. }
    rewrite M. rewrite sum_zero; [unfold Rdiv; ring|]. intros. rewrite V. ring.
  Qed.
End Carlo.
Print Assumptions C68_factor. Print Assumptions C68_variant. Print Assumptions C68_error. Print Assumptions C68_linear. Print Assumptions C68_covariance. Print Assumptions C68_zero.

(** What a fitter returns: the standard deviation of 25 results. *)
Theorem C68_fitter {X} np (result : X -> vec -> vec) eigh random C index parameters x i :
  let c := make eigh C index 25 in let v := fun k => result x (variant np c parameters (random 12345%Z k)) i in
  let e := monteCarloError np result eigh random C index parameters x i in 0 <= e /\ e ^ 2 = sum 25 (fun k => (v k - sum 25 v / 25) ^ 2) / 25.
Proof.
  unfold make. destruct (eigh C) as [val V] eqn:EV. set (c := mkC V (fun k => sqrt (val k)) index 25). cbv zeta. unfold monteCarloError, make. rewrite EV. fold c.
  destruct (C68_error np result c parameters x (random 12345%Z) i ltac:(cbn; lia)) as [A B]. split; [exact A|]. rewrite B. change (c_cycles c) with 25%nat.
  replace (INR 25) with 25 by (rewrite INR_IZR_INZ; reflexivity). reflexivity.
Qed.
Print Assumptions C68_fitter.

(** ** Samples *)
Section Samples.
  Context {X : Type} (len : X -> nat) (result : X -> vec -> vec).
  Fixpoint wsum (s : list (vec * R)) (f : vec -> R) : R := match s with [] => 0 | pw :: s => exp (snd pw) * f (fst pw) + wsum s f end.
  Lemma lsum_cons_ l : forall a, fold_left Rplus l a = a + fold_left Rplus l 0.
  Proof. induction l as [|x l IH]; intro a; cbn; [ring|]. rewrite IH, (IH (0 + x)). ring. Qed.
  Lemma lsum_cons x l : lsum (x :: l) = x + lsum l.
  Proof. unfold lsum. cbn. rewrite lsum_cons_. ring. Qed.
  Lemma lsum_wsum s g f : (forall pw, g pw = exp (snd pw) * f (fst pw)) -> lsum (map g s) = wsum s f.
  Proof. intro H. induction s as [|pw s IH]; [reflexivity|]. cbn [map]. rewrite lsum_cons, IH, H. reflexivity. Qed.
  Lemma wsum_plus s f g : wsum s (fun p => f p + g p) = wsum s f + wsum s g.
  Proof. induction s as [|pw s IH]; cbn; [ring|]. rewrite IH. ring. Qed.
  Lemma wsum_scal s c f : wsum s (fun p => c * f p) = c * wsum s f.
  Proof. induction s as [|pw s IH]; cbn; [ring|]. rewrite IH. ring. Qed.
  Lemma wsum_ext s f g : (forall p, f p = g p) -> wsum s f = wsum s g.
  Proof. intro H. induction s as [|pw s IH]; cbn; [reflexivity|]. rewrite IH, H. reflexivity. Qed.
  Lemma wsum_nonneg s f : (forall p, 0 <= f p) -> 0 <= wsum s f.
  Proof. intro H. induction s as [|pw s IH]; cbn; [lra|]. pose proof (H (fst pw)). pose proof (exp_pos (snd pw)). nra. Qed.

  (** the error wanted at point i: the weighted standard deviation over the samples *)
  Definition wanted (s : slist) (x : X) (i : nat) : R :=
    let mean := wsum (s_samples s) (fun p => result x p i) in sqrt (wsum (s_samples s) (fun p => (result x p i - mean) ^ 2)).
  (** Nothing calculated yet, or for another number of points, or for the same points *)
  Definition uptodate (s : slist) (x : X) : Prop := exists x0 s0, s = snd (average len result x0 s0) /\ (len x0 <> len x \/ x0 = x).

  Lemma average_right x s : wsum (s_samples s) (fun _ => 1) = 1 -> let '(r, s') := average len result x s in
    fst r = len x /\ (forall i, snd r i = wsum (s_samples s) (fun p => result x p i)) /\ exists e, s_error s' = Some (len x, e) /\ forall i, e i = wanted s x i.
  Proof.
    intro W. cbn. split; [reflexivity|]. split; [intro i; apply lsum_wsum; intros; cbn; ring|]. eexists. split; [reflexivity|]. intro i. unfold wanted. f_equal.
    rewrite (lsum_wsum _ (fun pw => result x (fst pw) i * exp (snd pw)) (fun p => result x p i)) by (intros; ring).
    rewrite (lsum_wsum _ (fun pw => result x (fst pw) i * exp (snd pw) * result x (fst pw) i) (fun p => result x p i ^ 2)) by (intros; ring).
    set (m := wsum (s_samples s) (fun p => result x p i)). transitivity (wsum (s_samples s) (fun p => result x p i ^ 2) + ((- 2 * m) * m + m ^ 2 * wsum (s_samples s) (fun _ => 1))).
    - rewrite W. ring.
    - unfold m at 2. rewrite <- !wsum_scal, <- !wsum_plus. apply wsum_ext. intro. ring.
  Qed.
  (** The average over the samples and the weighted standard deviation. *)
  Theorem C68_average x s : wsum (s_samples s) (fun _ => 1) = 1 -> let '(r, s') := average len result x s in
    fst r = len x /\ (forall i, snd r i = wsum (s_samples s) (fun p => result x p i)) /\ exists e, s_error s' = Some (len x, e) /\ forall i, e i = wanted s x i.
  Proof. exact (average_right x s). Qed.

  Theorem C68_sample_error x s : wsum (s_samples s) (fun _ => 1) = 1 -> uptodate s x -> exists e, fst (sampleError len result x s) = Some (len x, e) /\ forall i, e i = wanted s x i.
  Proof.
    intros W (x0 & s0 & -> & H). unfold sampleError. cbn [average snd s_result]. destruct H as [H| ->].
    - destruct (Nat.eqb_spec (len x) (len x0)); [congruence|]. cbn [fst]. exact (proj2 (proj2 (average_right x (snd (average len result x0 s0)) W))).
    - rewrite Nat.eqb_refl. cbn [fst]. exact (proj2 (proj2 (average_right x s0 W))).
  Qed.

  (** Before average has been called: AttributeError. *)
  Theorem C68_first_refuted x l : fst (sampleError len result x (mkS l None None)) = None.
  Proof. reflexivity. Qed.
  (** After average, or another call, with as many points elsewhere: the errors of those points. *)
  Theorem C68_stale_refuted x x0 s : wsum (s_samples s) (fun _ => 1) = 1 -> len x0 = len x ->
    exists e, fst (sampleError len result x (snd (average len result x0 s))) = Some (len x, e) /\ forall i, e i = wanted s x0 i.
  Proof.
    intros W H. unfold sampleError. cbn [average snd s_result]. rewrite H, Nat.eqb_refl. cbn [fst]. rewrite <- H. exact (proj2 (proj2 (average_right x0 s W))).
  Qed.
End Samples.
Print Assumptions C68_average. Print Assumptions C68_sample_error. Print Assumptions C68_first_refuted. Print Assumptions C68_stale_refuted.

(** A straight line p0 + p1 x with variances 1 and 4, four draws of unit covariance: the error is 2 x where only
    the slope is fitted, sqrt( 1 + 4 x^2 ) where both are. *)
Definition diag : mat := fun i j => if (i =? j)%nat then if (i =? 0)%nat then 1 else 4 else 0.
Definition eigh_diag (_ : mat) : vec * mat := ((fun k => if (k =? 0)%nat then 1 else 4), delta).
Definition draws (t : nat) : vec := fun k => match t, k with 0%nat, _ => 1 | 1%nat, 0%nat => 1 | 2%nat, 1%nat => 1 | _, _ => -1 end.
Definition line (x : R) (p : vec) : vec := fun _ => p 0%nat + p 1%nat * x.
Lemma diag_eigen : eigen 2 diag (fst (eigh_diag diag)) (snd (eigh_diag diag)).
Proof. split; intros [|[|k]] [|[|l]] Hk Hl; try lia; cbn; unfold delta, diag; cbn; ring. Qed.
Lemma diag_psd : psd 2 diag.
Proof. intro d. cbn. unfold diag. cbn. pose proof (pow2_ge_0 (d 0%nat)). pose proof (pow2_ge_0 (d 1%nat)). lra. Qed.
Example C68_example x p i : getError 2 line (make eigh_diag diag (Some [0%nat; 1%nat]) 4) p x draws i ^ 2 = 1 + 4 * x ^ 2.
Proof.
  rewrite (C68_covariance 2 line eigh_diag diag 4 p [0%nat; 1%nat] x i (fun k => if (k =? 0)%nat then 1 else x) draws).
  - cbn. unfold diag. cbn. ring.
  - repeat constructor; cbn; intuition lia.
  - intros q r H. unfold line. cbn. ring.
  - lia.
  - exact diag_eigen.
  - exact diag_psd.
  - intros [|[|k]] [|[|l]] Hk Hl; try (cbn in Hk, Hl; lia); unfold zcov, zmean, delta, draws; cbn; field.
Qed.
