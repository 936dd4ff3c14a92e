(** Proofs about the elementary models. *)
From Coquelicot Require Import Coquelicot.
From Coq Require Import Reals List Arith Bool Lra Lia.
From Verif Require Import M_Order P_Order M_Elem S_Elem P_Errdis.
Import ListNotations.
Local Open Scope R_scope.

Lemma nth_map_seq (f : nat -> R) a n k : (k < n)%nat -> nth k (map f (seq a n)) 0 = f (a + k)%nat.
Proof.
  intros H. rewrite nth_indep with (d' := f 0%nat) by (rewrite map_length, seq_length; exact H).
  rewrite map_nth, seq_nth by exact H. reflexivity.
Qed.

Lemma partial_nth m x p k : (k < el_np m)%nat -> nth k (basePartial m x p None) 0 = el_part m x p k.
Proof.
  intros H. unfold basePartial. rewrite nth_indep with (d' := el_part m x p 0%nat) by (rewrite map_length, seq_length; exact H).
  rewrite map_nth, seq_nth by exact H. reflexivity.
Qed.

Lemma partials_intro (m : elem) (dom : R -> list R -> Prop) :
  (forall x p k, length p = el_np m -> dom x p -> (k < el_np m)%nat ->
     is_derive (fun t => el_f m x (upd k t p)) (nth k p 0) (el_part m x p k)) ->
  partials_exact m dom.
Proof.
  intros H x p L D. split.
  - unfold basePartial. rewrite map_length, seq_length. reflexivity.
  - intros k K. rewrite partial_nth by exact K. apply H; assumption.
Qed.

Ltac lst p L :=
  repeat (destruct p as [|? p]; [discriminate L|]); try (destruct p; [|discriminate L]); clear L.

Ltac params :=
  apply partials_intro; intros x p k L D K; cbn in L, K;
  repeat (destruct p as [|? p]; [discriminate L|]; try (destruct p; [|discriminate L]; clear L));
  do 6 (try (destruct k as [|k])); try lia; cbn in *.


Ltac slope :=
  intros x p L D; cbn in L;
  repeat (destruct p as [|? p]; [discriminate L|]; try (destruct p; [|discriminate L]; clear L)); cbn in *.

Ltac done_ :=
  match goal with
  | |- @eq _ _ _ => try reflexivity; unfold Rdiv, Rminus in *; (ring || (field; repeat split; trivial; try lra))
  | |- _ => unfold Rdiv, Rminus in *; repeat split; trivial; try lra
  end.

Lemma sine_partials : partials_exact sine anywhere.
Proof. params; auto_derive; trivial; ring. Qed.
Lemma sine_slope : slope_exact sine anywhere.
Proof. slope; auto_derive; trivial; ring. Qed.

Lemma sinep_partials : partials_exact sine_phase anywhere.
Proof. params; auto_derive; trivial; ring. Qed.
Lemma sinep_slope : slope_exact sine_phase anywhere.
Proof. slope; auto_derive; trivial; ring. Qed.

Lemma sinedrift_partials : partials_exact sinedrift anywhere.
Proof.
  params.
  all: replace (2 * PI * x * r + 2 * PI * x * x * r2) with (2 * PI * x * (r + r2 * x)) by ring.
  all: auto_derive; trivial; ring.
Qed.
Lemma sinedrift_slope : slope_exact sinedrift anywhere.
Proof. slope; auto_derive; trivial; ring. Qed.

Lemma gauss_partials : partials_exact gaussm (fun _ p => nth 2 p 0 <> 0).
Proof. unfold gaussm, gauss_f. params; auto_derive; done_. Qed.
Lemma gauss_slope : slope_exact gaussm (fun _ p => nth 2 p 0 <> 0).
Proof. unfold gaussm, gauss_f. slope; auto_derive; done_. Qed.

Lemma sqpos (x s : R) : s <> 0 -> x * x + s * s <> 0.
Proof. intros H. pose proof (Rle_0_sqr x). pose proof (Rsqr_pos_lt s H). unfold Rsqr in *. lra. Qed.

Lemma lorentz_partials : partials_exact lorentz (fun _ p => 0 < nth 2 p 0).
Proof.
  params.
  all: rewrite ?(Rabs_pos_eq r1) by lra.
  all: pose proof (sqpos (x - r0) r1 ltac:(lra)) as N.
  all: auto_derive; [exact N || trivial|field; exact N].
Qed.
Lemma lorentz_slope : slope_exact lorentz (fun _ p => nth 2 p 0 <> 0).
Proof.
  slope. pose proof (sqpos (x - r0) r1 D) as N. auto_derive; [exact N|field; exact N].
Qed.

Lemma exp_partials sign : partials_exact (expm sign) anywhere.
Proof. unfold expm, expm_f. params; auto_derive; trivial; ring. Qed.
Lemma exp_slope sign : slope_exact (expm sign) anywhere.
Proof. unfold expm, expm_f. slope; auto_derive; trivial; ring. Qed.

Lemma Rpower_m1 x y : 0 < x -> Rpower x (y - 1) = Rpower x y / x.
Proof.
  intros H. unfold Rminus. rewrite Rpower_plus, Rpower_Ropp, Rpower_1 by exact H. reflexivity.
Qed.

Lemma powerlaw_partials : partials_exact powerlaw (fun x p => nth 1 p 0 < x).
Proof.
  params.
  all: rewrite ?Rpower_m1 by lra; unfold Rpower.
  all: auto_derive; [try split; try lra; trivial|].
  all: unfold Rdiv, Rminus in *; try ring. all: field; lra.
Qed.
Lemma powerlaw_slope : slope_exact powerlaw (fun x p => nth 1 p 0 < x).
Proof. slope. rewrite ?Rpower_m1 by lra; unfold Rpower. auto_derive; done_. Qed.

Lemma one_sq (x : R) : 1 + x * x <> 0.
Proof. pose proof (Rle_0_sqr x). unfold Rsqr in *. lra. Qed.

Lemma arctan_partials : partials_exact arctan anywhere.
Proof.
  params.
  all: auto_derive; trivial. all: field. all: try (pose proof (one_sq (r1 * (x - r0)))). all: unfold Rsqr in *; nra.
Qed.
Lemma arctan_slope : slope_exact arctan anywhere.
Proof. slope. auto_derive; trivial. field. pose proof (one_sq (r1 * (x - r0))). nra. Qed.

Lemma logistic_partials : partials_exact logistic (fun _ p => nth 2 p 0 <> 0).
Proof.
  params.
  all: pose proof (exp_pos ((r0 - x) / r1)).
  all: auto_derive; done_.
Qed.
Lemma logistic_slope : slope_exact logistic (fun _ p => nth 2 p 0 <> 0).
Proof. slope. pose proof (exp_pos ((r0 - x) / r1)). auto_derive; done_. Qed.

(** the denominator is not zero, e.g. for p_1 > -1 *)
Definition etalon_dom (x : R) (p : list R) : Prop :=
  1 + nth 1 p 0 * (sin (PI * x * nth 2 p 0 + nth 3 p 0) * sin (PI * x * nth 2 p 0 + nth 3 p 0)) <> 0.

Lemma etalon_partials : partials_exact etalon etalon_dom.
Proof.
  unfold etalon_dom. params.
  all: rewrite <- Rmult_assoc in D.
  all: auto_derive; done_.
Qed.
Lemma etalon_slope : slope_exact etalon etalon_dom.
Proof. unfold etalon_dom. slope. rewrite <- Rmult_assoc in D. auto_derive; done_. Qed.

Lemma etalondrift_partials y : partials_exact (etalondrift y) anywhere.
Proof.
  params.
  all: replace (x * r1) with (r1 * x) by ring.
  all: pose proof (one_sq (r0 * sin (PI * (r1 * x + r2 + r3 * y)))).
  all: auto_derive; done_.
Qed.

(** *** Linear models *)
Definition lsum (n : nat) (h : nat -> R) : R := fold_left (fun r k => r + h k) (seq 0 n) 0.

Lemma lsum_S n h : lsum (S n) h = lsum n h + h n.
Proof. unfold lsum. rewrite seq_S, fold_left_app. reflexivity. Qed.

Lemma lsum_ext n g h : (forall k, (k < n)%nat -> g k = h k) -> lsum n g = lsum n h.
Proof.
  induction n as [|n IH]; intros H; [reflexivity|]. rewrite !lsum_S, IH, H by (intros; try apply H; lia). reflexivity.
Qed.

Lemma lsum_shift n h : lsum (S n) h = h 0%nat + lsum n (fun k => h (S k)).
Proof.
  induction n as [|n IH]; [unfold lsum; cbn; ring|]. rewrite lsum_S, IH, (lsum_S n). ring.
Qed.

Lemma lsum_derive n (h : nat -> R -> R) (d : nat -> R) (x : R) :
  (forall k, (k < n)%nat -> is_derive (h k) x (d k)) ->
  is_derive (fun t => lsum n (fun k => h k t)) x (lsum n d).
Proof.
  induction n as [|n IH]; intros H.
  - apply (d_const 0 x).
  - rewrite lsum_S. apply (is_derive_ext (fun t => lsum n (fun k => h k t) + h n t)).
    + intros t. rewrite lsum_S. reflexivity.
    + apply (is_derive_plus (fun t => lsum n (fun k => h k t)) (h n)); [apply IH|apply H]; intros; try apply H; lia.
Qed.

Lemma lsum_zero n h : (forall k, (k < n)%nat -> h k = 0) -> lsum n h = 0.
Proof.
  induction n as [|n IH]; intros H; [reflexivity|]. rewrite lsum_S, IH, H by (intros; try apply H; lia). ring.
Qed.

Lemma upd_same (k : nat) (t : R) (p : list R) : (k < length p)%nat -> nth k (upd k t p) 0 = t.
Proof. intros H. apply nth_error_nth. apply upd_nth_same. exact H. Qed.
Lemma upd_other (k i : nat) (t : R) (p : list R) : i <> k -> nth i (upd k t p) 0 = nth i p 0.
Proof. intros H. rewrite <- !nth_default_eq. unfold nth_default. rewrite upd_nth_other by congruence. reflexivity. Qed.

(** the derivative of a list item to the item k *)
Lemma upd_item_derive (k i : nat) (p : list R) : (k < length p)%nat ->
  is_derive (fun t => nth i (upd k t p) 0) (nth k p 0) (if (i =? k)%nat then 1 else 0).
Proof.
  intros H. destruct (Nat.eqb_spec i k) as [->|N].
  - apply (is_derive_ext (fun t : R => t)); [intros t; symmetry; apply upd_same; exact H|].
    apply (is_derive_id (nth k p 0)).
  - apply (is_derive_ext (fun t : R => nth i p 0)); [intros t; symmetry; apply upd_other; exact N|].
    apply d_const.
Qed.

(** the sum of c_i * p_(k0+i) *)
Lemma lsum_par_derive n k0 (c : nat -> R) (k : nat) (p : list R) : (k < length p)%nat ->
  is_derive (fun t => lsum n (fun i => nth (k0 + i) (upd k t p) 0 * c i)) (nth k p 0)
            (if ((k0 <=? k) && (k <? k0 + n))%nat then c (k - k0)%nat else 0).
Proof.
  intros H. evar_last.
  { apply (lsum_derive n (fun i t => nth (k0 + i) (upd k t p) 0 * c i) (fun i => (if (k0 + i =? k)%nat then 1 else 0) * c i)).
    intros i Hi. evar_last.
    - apply (is_derive_mult (fun t => nth (k0 + i) (upd k t p) 0) (fun _ => c i)); [apply upd_item_derive; exact H|apply d_const|].
      intros; apply Rmult_comm.
    - unfold plus, mult, zero; cbn. ring. }
  clear H. cbv beta. induction n as [|n IH].
  - rewrite Nat.add_0_r. destruct (Nat.leb_spec k0 k), (Nat.ltb_spec k k0); try reflexivity; cbn; lia.
  - rewrite lsum_S, IH.
    destruct (Nat.leb_spec k0 k), (Nat.ltb_spec k (k0 + n)), (Nat.ltb_spec k (k0 + S n)), (Nat.eqb_spec (k0 + n) k);
      cbn [andb]; try lia; try ring.
    replace (k - k0)%nat with n by lia. ring.
Qed.

Lemma linear_partials np part dx : partials_exact (linear np part dx) anywhere.
Proof.
  apply partials_intro. intros x p k L _ K. cbn in L, K |- *.
  evar_last; [apply (lsum_par_derive np 0 (part x) k p); lia|].
  rewrite Nat.sub_0_r. destruct (Nat.leb_spec 0 k), (Nat.ltb_spec k (0 + np)); try lia; reflexivity.
Qed.

Lemma linear_slope np part dpart dx (dom : R -> Prop) :
  (forall x k, dom x -> (k < np)%nat -> is_derive (fun t => part t k) x (dpart x k)) ->
  (forall x p, length p = np -> dom x -> dx x p = linear_f np dpart x p) ->
  slope_exact (linear np part dx) (fun x _ => dom x).
Proof.
  intros H E x p L D. cbn in *. rewrite E by assumption.
  apply (lsum_derive np (fun k t => nth k p 0 * part t k) (fun k => nth k p 0 * dpart x k)).
  intros k K. evar_last; [apply (is_derive_scal (fun t => part t k)); apply H; assumption|reflexivity].
Qed.

(** *** Polynomial *)
Lemma poly_part_S x k : poly_part x (S k) = poly_part x k * x.
Proof. reflexivity. Qed.

Lemma poly_part_pow x k : poly_part x k = x ^ k.
Proof. induction k as [|k IH]; [reflexivity|]. rewrite poly_part_S, IH. cbn. ring. Qed.

Definition poly_dpart (x : R) (k : nat) : R := INR k * poly_part x (k - 1).

Lemma poly_part_derive (x : R) (k : nat) : is_derive (fun t => poly_part t k) x (poly_dpart x k).
Proof.
  apply (is_derive_ext (fun t => t ^ k)); [intros t; symmetry; apply poly_part_pow|].
  unfold poly_dpart. rewrite poly_part_pow. auto_derive; [trivial|].
  replace (k - 1)%nat with (pred k) by lia. ring.
Qed.

Lemma poly_slope degree : slope_exact (poly degree) anywhere.
Proof.
  apply (linear_slope (degree + 1) poly_part poly_dpart _ (fun _ => True)).
  - intros x k _ _. apply poly_part_derive.
  - intros x p L _. unfold poly_dx. destruct (Nat.leb_spec (degree + 1) 1) as [D|D].
    + symmetry. apply (lsum_zero (degree + 1)). intros k K. assert (k = 0)%nat as -> by lia.
      unfold poly_dpart. cbn. ring.
    + replace (degree + 1)%nat with (S degree) by lia. unfold linear_f.
      change (lsum (S degree - 1) (fun k => nth k (skipn 1 (map (fun k => nth k p 0 * INR k) (seq 0 (S degree)))) 0 * poly_part x k)
              = lsum (S degree) (fun k => nth k p 0 * poly_dpart x k)).
      rewrite lsum_shift. replace (S degree - 1)%nat with degree by lia.
      rewrite (lsum_ext degree _ (fun k => nth (S k) p 0 * poly_dpart x (S k))).
      * unfold poly_dpart at 2. cbn [INR]. ring.
      * intros k K. cbn [seq map skipn].
        rewrite (nth_map_seq (fun k => nth k p 0 * INR k)) by lia. unfold poly_dpart.
        replace (S k - 1)%nat with k by lia. replace (1 + k)%nat with (S k) by lia. ring.
Qed.

(** *** Chebyshev *)
Fixpoint vpair (x : R) (n : nat) : R * R :=
  match n with O => (0, 1) | S n => let '(a, b) := vpair x n in (b, 2 * x * b - a) end.
Definition V (x : R) (n : nat) : R := fst (vpair x n).

Lemma V_rec x n : V x (S (S n)) = 2 * x * V x (S n) - V x n.
Proof. unfold V. cbn. destruct (vpair x n). reflexivity. Qed.

Lemma cheb_rec x n : cheb_part x (S (S n)) = 2 * x * cheb_part x (S n) - cheb_part x n.
Proof. unfold cheb_part. cbn. destruct (cheb_pair x n). reflexivity. Qed.

Lemma pair_ind (P : nat -> Prop) : P 0%nat -> P 1%nat -> (forall n, P n -> P (S n) -> P (S (S n))) -> forall n, P n.
Proof. intros A B C n. enough (P n /\ P (S n)) by tauto. induction n; intuition. Qed.

Lemma cheb_V x n : cheb_part x n = V x (S n) - x * V x n.
Proof.
  induction n as [| |n IH1 IH2] using pair_ind; [unfold cheb_part, V; cbn; ring..|].
  rewrite cheb_rec, IH1, IH2, !V_rec. ring.
Qed.

Lemma cheb_part_derive (x : R) (n : nat) : is_derive (fun t => cheb_part t n) x (INR n * V x n).
Proof.
  induction n as [| |n IH1 IH2] using pair_ind.
  - evar_last; [apply (d_const 1 x)|cbn; ring].
  - evar_last; [apply (is_derive_id x)|]. unfold V, one; cbn. ring.
  - apply (is_derive_ext (fun t => 2 * t * cheb_part t (S n) - cheb_part t n)); [intros t; symmetry; apply cheb_rec|].
    evar_last.
    { apply (is_derive_minus (fun t => 2 * t * cheb_part t (S n)) (fun t => cheb_part t n)); [|exact IH1].
      apply (is_derive_mult (fun t => 2 * t) (fun t => cheb_part t (S n)) x 2); [auto_derive; [trivial|ring]|exact IH2|].
      intros; apply Rmult_comm. }
    unfold minus, plus, opp, mult; cbn -[INR V cheb_part]. rewrite cheb_V, V_rec, !S_INR. ring.
Qed.

Lemma cheb_loop x p m :
  fold_left (cheb_step x p) (seq 2 m) (1, 2 * x, 1 * nth 1 p 0 + 2 * (2 * x) * nth 2 p 0)
  = (V x (S m), V x (S (S m)), lsum (m + 3) (fun k => nth k p 0 * (INR k * V x k))).
Proof.
  induction m as [|m IH].
  - unfold lsum, V. cbn. f_equal; [f_equal; ring|]. ring.
  - rewrite seq_S, fold_left_app, IH. cbn [fold_left cheb_step].
    rewrite <- (V_rec x (S m)). replace (S m + 3)%nat with (S (m + 3)) by lia. rewrite lsum_S.
    replace (2 + m + 1)%nat with (m + 3)%nat by lia.
    replace (V x (m + 3)) with (V x (S (S (S m)))) by (f_equal; lia). f_equal. ring.
Qed.

Lemma cheb_slope degree : slope_exact (cheb degree) anywhere.
Proof.
  apply (linear_slope (degree + 1) cheb_part (fun x k => INR k * V x k) _ (fun _ => True)).
  - intros x k _ _. apply cheb_part_derive.
  - intros x p L _. unfold cheb_dx, linear_f.
    change (fold_left _ (seq 0 (degree + 1)) 0) with (lsum (degree + 1) (fun k => nth k p 0 * (INR k * V x k))).
    destruct (Nat.leb_spec (degree + 1) 1) as [D|D].
    + symmetry. apply lsum_zero. intros k K. assert (k = 0)%nat as -> by lia. cbn. ring.
    + destruct (Nat.leb_spec (degree + 1 - 1) 1) as [D2|D2].
      * assert (degree = 1)%nat as -> by lia. unfold lsum, V. cbn. ring.
      * replace (degree + 1 - 1 - 2)%nat with (degree - 2)%nat by lia. rewrite cheb_loop. cbn [snd].
        replace (degree - 2 + 3)%nat with (degree + 1)%nat by lia. reflexivity.
Qed.

(** *** Harmonic *)
Definition harm_dpart (period x : R) (kp : nat) : R :=
  let tp := 2 * PI / period in
  let j := INR (1 + kp / 2) in
  if (kp mod 2 =? 0)%nat then - (tp * j) * sin (j * (tp * x)) else tp * j * cos (j * (tp * x)).

Lemma harm_part_derive (period x : R) (kp : nat) :
  is_derive (fun t => harm_part period t kp) x (harm_dpart period x kp).
Proof.
  unfold harm_part, harm_dpart, Rdiv.
  replace (2 * PI * / period * x) with (2 * PI * x * / period) by ring.
  generalize (INR (1 + kp / 2)) as j. intros j.
  destruct (kp mod 2 =? 0)%nat; auto_derive; trivial; ring.
Qed.

Lemma harm_even period x o : harm_dpart period x (2 * o) =
  - (2 * PI / period * INR (o + 1)) * sin (INR (o + 1) * (2 * PI / period * x)).
Proof.
  unfold harm_dpart. replace (2 * o)%nat with (o * 2)%nat by lia. rewrite Nat.mod_mul, Nat.div_mul by lia.
  replace (1 + o)%nat with (o + 1)%nat by lia. reflexivity.
Qed.
Lemma harm_odd period x o : harm_dpart period x (S (2 * o)) =
  2 * PI / period * INR (o + 1) * cos (INR (o + 1) * (2 * PI / period * x)).
Proof.
  unfold harm_dpart. replace (S (2 * o))%nat with (1 + o * 2)%nat by lia. rewrite Nat.mod_add, Nat.div_add by lia.
  change (1 / 2 + o)%nat with o. change (1 mod 2 =? 0)%nat with false.
  replace (1 + o)%nat with (o + 1)%nat by lia. reflexivity.
Qed.

Lemma harm_slope order period : slope_exact (harmonic order period) anywhere.
Proof.
  apply (linear_slope (2 * order) (harm_part period) (harm_dpart period) _ (fun _ => True)).
  - intros x k _ _. apply harm_part_derive.
  - intros x p _ _. unfold harm_dx, linear_f.
    change (lsum order (fun j => 2 * PI / period * INR (j + 1) *
              (nth (2 * j + 1) p 0 * cos (INR (j + 1) * (2 * PI / period * x))
               - nth (2 * j) p 0 * sin (INR (j + 1) * (2 * PI / period * x))))
            = lsum (2 * order) (fun k => nth k p 0 * harm_dpart period x k)).
    induction order as [|o IH]; [reflexivity|].
    replace (2 * S o)%nat with (S (S (2 * o))) by lia. rewrite !lsum_S, IH, harm_even, harm_odd.
    replace (2 * o + 1)%nat with (S (2 * o)) by lia. ring.
Qed.

Lemma sineamp_slope freq : slope_exact (sineamp freq) anywhere.
Proof. slope. unfold linear_f. cbn. auto_derive; trivial; ring. Qed.

Lemma power_slope ex : slope_exact (power ex) (fun x _ => 0 < x).
Proof. slope. unfold linear_f. cbn. rewrite Rpower_m1 by lra. unfold Rpower. auto_derive; done_. Qed.

(** *** Pade *)
Lemma pade_sum_lsum x p k0 n : pade_sum x p k0 n = lsum n (fun i => nth (k0 + i) p 0 * poly_part x i).
Proof.
  unfold pade_sum.
  enough (fold_left (fun st k => (fst st + nth k p 0 * snd st, snd st * x)) (seq k0 n) (0, 1)
          = (lsum n (fun i => nth (k0 + i) p 0 * poly_part x i), poly_part x n)) as -> by reflexivity.
  induction n as [|n IH]; [reflexivity|]. rewrite seq_S, fold_left_app, IH. cbn [fold_left fst snd].
  rewrite lsum_S. reflexivity.
Qed.

Lemma pade_dsum_lsum x p k0 n :
  pade_dsum x p k0 n = (lsum (S n) (fun i => nth (k0 + i) p 0 * poly_dpart x i),
                        lsum (S n) (fun i => nth (k0 + i) p 0 * poly_part x i)).
Proof.
  unfold pade_dsum.
  enough (fold_left (pade_dstep x p k0) (seq (k0 + 1) n) (0, 1, nth k0 p 0 * 1)
    = (lsum (S n) (fun i => nth (k0 + i) p 0 * poly_dpart x i), poly_part x n,
       lsum (S n) (fun i => nth (k0 + i) p 0 * poly_part x i))) as -> by reflexivity.
  induction n as [|n IH].
  - unfold lsum, poly_dpart. cbn. rewrite Nat.add_0_r. f_equal; [f_equal; ring|ring].
  - rewrite seq_S, fold_left_app, IH. cbn [fold_left pade_dstep].
    rewrite !(lsum_S (S n)).
    replace (poly_dpart x (S n)) with (INR (S n) * poly_part x n) by (unfold poly_dpart; do 2 f_equal; lia).
    replace (k0 + 1 + n - k0)%nat with (S n) by lia. replace (k0 + 1 + n)%nat with (k0 + S n)%nat by lia.
    rewrite (poly_part_S x n). f_equal. f_equal. ring.
Qed.

Lemma pade_sum_derive (x : R) p k0 n : is_derive (fun t => pade_sum t p k0 n) x (lsum n (fun i => nth (k0 + i) p 0 * poly_dpart x i)).
Proof.
  apply (is_derive_ext (fun t => lsum n (fun i => nth (k0 + i) p 0 * poly_part t i))).
  { intros t. symmetry. apply pade_sum_lsum. }
  apply (lsum_derive n (fun i t => nth (k0 + i) p 0 * poly_part t i) (fun i => nth (k0 + i) p 0 * poly_dpart x i)).
  intros k K. evar_last; [apply (is_derive_scal (fun t => poly_part t k)); apply poly_part_derive|reflexivity].
Qed.

Lemma pade_sum_par_derive (x : R) p k0 n k : (k < length p)%nat ->
  is_derive (fun t => pade_sum x (upd k t p) k0 n) (nth k p 0)
            (if ((k0 <=? k) && (k <? k0 + n))%nat then poly_part x (k - k0) else 0).
Proof.
  intros H. apply (is_derive_ext (fun t => lsum n (fun i => nth (k0 + i) (upd k t p) 0 * poly_part x i))).
  { intros t. symmetry. apply pade_sum_lsum. }
  apply (lsum_par_derive n k0 (poly_part x) k p H).
Qed.

(** the denominator is not zero *)
Definition pade_dom (num den : nat) (x : R) (p : list R) : Prop :=
  fold_right Rplus 0 (map (fun i => nth (num + 1 + i) p 0 * x ^ i) (seq 0 (den + 1))) <> 0.

Lemma lsum_fold n h a : lsum n (fun i => h (a + i)%nat) = fold_right Rplus 0 (map h (seq a n)).
Proof.
  revert a. induction n as [|n IH]; intros a; [reflexivity|].
  rewrite lsum_shift. cbn [seq map fold_right]. rewrite <- IH. f_equal; [f_equal; lia|].
  apply lsum_ext. intros k _. f_equal. lia.
Qed.

Lemma pade_dom_sum num den x p : pade_dom num den x p -> pade_sum x p (num + 1) (den + 1) <> 0.
Proof.
  unfold pade_dom. rewrite pade_sum_lsum. intros H.
  rewrite (lsum_ext _ _ (fun i => nth (num + 1 + (0 + i)) p 0 * x ^ (0 + i))).
  2:{ intros k _. rewrite poly_part_pow. reflexivity. }
  rewrite (lsum_fold (den + 1) (fun i => nth (num + 1 + i) p 0 * x ^ i) 0). exact H.
Qed.

Lemma pade_partials num den : partials_exact (pade num den) (pade_dom num den).
Proof.
  apply partials_intro. intros x p k L D K. change (el_np (pade num den)) with (num + den + 2)%nat in *. apply pade_dom_sum in D.
  assert (KL : (k < length p)%nat) by lia. cbn [pade el_f el_part].
  unfold pade_f, pade_part. evar_last.
  { apply (is_derive_div (fun t => pade_sum x (upd k t p) 0 (num + 1)) (fun t => pade_sum x (upd k t p) (num + 1) (den + 1))).
    - apply pade_sum_par_derive. exact KL.
    - apply pade_sum_par_derive. exact KL.
    - rewrite upd_nth_id. exact D. }
  rewrite upd_nth_id. rewrite Nat.sub_0_r.
  destruct (Nat.leb_spec k num).
  - destruct (Nat.leb_spec 0 k), (Nat.ltb_spec k (0 + (num + 1))), (Nat.leb_spec (num + 1) k); try lia. cbn [andb].
    field. exact D.
  - destruct (Nat.leb_spec 0 k), (Nat.ltb_spec k (0 + (num + 1))), (Nat.leb_spec (num + 1) k), (Nat.ltb_spec k (num + 1 + (den + 1))); try lia. cbn [andb].
    field. exact D.
Qed.

Lemma pade_slope num den : slope_exact (pade num den) (pade_dom num den).
Proof.
  intros x p L D. cbn in L |- *. apply pade_dom_sum in D. unfold pade_f, pade_dx. rewrite !pade_dsum_lsum.
  evar_last.
  { apply (is_derive_div (fun t => pade_sum t p 0 (num + 1)) (fun t => pade_sum t p (num + 1) (den + 1)));
      [apply pade_sum_derive|apply pade_sum_derive|exact D]. }
  rewrite !pade_sum_lsum. rewrite pade_sum_lsum in D. replace (den + 1)%nat with (S den) in * by lia.
  replace (num + 1)%nat with (S num) in * by lia. field. exact D.
Qed.

(** *** PseudoVoigt *)
Lemma pv_partials : partials_exact pseudovoigt (fun _ p => 0 < nth 2 p 0).
Proof.
  apply partials_intro. intros x p k L D K. cbn in L, K.
  do 4 (destruct p as [|? p]; [discriminate L|]). destruct p; [|discriminate L]. clear L. cbn in D.
  pose proof (lorentz_partials x [r; r0; r1] eq_refl D) as (_ & HL).
  pose proof (gauss_partials x [r; r0; r1] eq_refl (Rgt_not_eq _ _ D)) as (_ & HG).
  destruct (Nat.lt_ge_cases k 3) as [K3|K3].
  - specialize (HL k K3). specialize (HG k K3). rewrite partial_nth in HL, HG by exact K3.
    assert (E : el_part pseudovoigt x [r; r0; r1; r2] k
                = r2 * el_part lorentz x [r; r0; r1] k + (1 - r2) * el_part gaussm x [r; r0; r1] k).
    { unfold pseudovoigt, el_part at 1. rewrite (proj2 (Nat.ltb_lt k 3) K3). reflexivity. }
    rewrite E. replace (nth k [r; r0; r1; r2] 0) with (nth k [r; r0; r1] 0) by (destruct k as [|[|[|k]]]; [reflexivity..|lia]).
    apply (is_derive_ext (fun t => r2 * el_f lorentz x (upd k t [r; r0; r1]) + (1 - r2) * el_f gaussm x (upd k t [r; r0; r1]))).
    { intros t. destruct k as [|[|[|k]]]; [reflexivity..|lia]. }
    apply (is_derive_plus (fun t => r2 * el_f lorentz x (upd k t [r; r0; r1])) (fun t => (1 - r2) * el_f gaussm x (upd k t [r; r0; r1])));
      apply is_derive_scal; assumption.
  - assert (k = 3)%nat as -> by lia. clear HL HG.
    change (is_derive (fun t : R => t * el_f lorentz x [r; r0; r1] + (1 - t) * el_f gaussm x [r; r0; r1]) r2
                      (el_f lorentz x [r; r0; r1] - el_f gaussm x [r; r0; r1])).
    generalize (el_f lorentz x [r; r0; r1]) (el_f gaussm x [r; r0; r1]). intros a b.
    auto_derive; [trivial|ring].
Qed.

Lemma pv_slope : slope_exact pseudovoigt (fun _ p => nth 2 p 0 <> 0).
Proof.
  intros x p L D. cbn in L. do 4 (destruct p as [|? p]; [discriminate L|]). destruct p; [|discriminate L]. clear L. cbn in D.
  pose proof (lorentz_slope x [r; r0; r1] eq_refl D) as HL.
  pose proof (gauss_slope x [r; r0; r1] eq_refl D) as HG.
  apply (is_derive_plus (fun t => r2 * el_f lorentz t [r; r0; r1]) (fun t => (1 - r2) * el_f gaussm t [r; r0; r1]));
      apply is_derive_scal; assumption.
Qed.

(** *** EtalonDrift: the slope it computes has one factor p_2 too many *)
Lemma etalondrift_factor (x y : R) p : length p = 5%nat ->
  exists d, is_derive (fun t => el_f (etalondrift y) t p) x d /\ el_dx (etalondrift y) x p = nth 2 p 0 * d.
Proof.
  intros L. do 5 (destruct p as [|? p]; [discriminate L|]). destruct p; [|discriminate L].
  cbn. eexists. split.
  - auto_derive; [apply one_sq|reflexivity].
  - pose proof (one_sq (r0 * sin (PI * (r1 * x + r2 + r3 * y)))) as N.
    replace (x * r1) with (r1 * x) by ring. unfold Rdiv, Rminus in *. field. intros E. apply N. rewrite <- E. ring.
Qed.
