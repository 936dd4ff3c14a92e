(** C55: polynomial surfaces. *)
From Coquelicot Require Import Coquelicot.
From Coq Require Import List Arith ZArith Reals Bool Lra Lia.
From Verif Require Import L_Sum M_PolySurface.
Import ListNotations.
Local Open Scope R_scope.

Lemma sum1 : forall f, sum 1 f = f 0%nat.
Proof. intros. cbn [sum]. apply Rplus_0_l. Qed.
Lemma sumS : forall n f, sum (S n) f = sum n f + f n.
Proof. reflexivity. Qed.

(** Number of terms of a degree less than d *)
Fixpoint tri (d : nat) : nat := match d with O => 0 | S m => tri m + S m end.

(** The polynomial in which parameter tri d + i belongs to x^(d-i) y^i *)
Definition poly (degree : nat) (p : nat -> R) (x y : R) : R :=
  sum (S degree) (fun d => sum (S d) (fun i => p (tri d + i)%nat * (x ^ (d - i) * y ^ i))).

Lemma tri_double : forall d, (2 * tri d = d * (d + 1))%nat.
Proof. induction d; cbn [tri]; lia. Qed.
Lemma npars_tri : forall d, npars d = tri (S d).
Proof.
  intros. unfold npars. pose proof (tri_double (S d)).
  replace ((d + 2) * (d + 1))%nat with (tri (S d) * 2)%nat by lia. apply Nat.div_mul. lia.
Qed.
Lemma tri_le : forall a b, (a <= b)%nat -> (tri a <= tri b)%nat.
Proof. induction 1; cbn [tri]; lia. Qed.

(** Rows of 1, 2, 3, ... numbers after each other *)
Definition rows {A} (f : nat -> nat -> A) (n : nat) : list A := concat (map (fun d => map (f d) (seq 0 (S d))) (seq 0 n)).
Lemma rows_S {A} (f : nat -> nat -> A) n : rows f (S n) = rows f n ++ map (f n) (seq 0 (S n)).
Proof. unfold rows. rewrite (seq_S n 0), map_app, concat_app. cbn [map concat plus]. rewrite app_nil_r, seq_S. reflexivity. Qed.
Lemma rows_len {A} (f : nat -> nat -> A) n : length (rows f n) = tri n.
Proof. induction n; [reflexivity|]. rewrite rows_S, app_length, IHn, map_length, seq_length. reflexivity. Qed.
Lemma rows_nth {A} (f : nat -> nat -> A) n d i z : (d < n)%nat -> (i <= d)%nat -> nth (tri d + i) (rows f n) z = f d i.
Proof.
  induction n; intros; [lia|]. rewrite rows_S. destruct (Nat.eq_dec d n) as [->|].
  - rewrite app_nth2; rewrite rows_len; [|lia]. replace (tri n + i - tri n)%nat with i by lia.
    rewrite nth_indep with (d' := f n 0%nat) by (rewrite map_length, seq_length; lia).
    rewrite map_nth, seq_nth by lia. reflexivity.
  - rewrite app_nth1; [apply IHn; lia|]. rewrite rows_len. pose proof (tri_le (S d) n ltac:(lia)). cbn [tri] in *. lia.
Qed.

Lemma part_rows : forall degree x y, basePartial degree x y = rows (fun d i => y ^ i * x ^ (d - i)) (S degree).
Proof. reflexivity. Qed.

Definition dot (p q : list R) : R := fold_right Rplus 0 (map (fun pq => fst pq * snd pq) (combine p q)).
Lemma dot_sum : forall q p, dot p q = sum (length q) (fun k => nth k p 0 * nth k q 0).
Proof.
  assert (G : forall n f, sum (S n) f = f 0%nat + sum n (fun i => f (S i))).
  { intros. pose proof (sum_app 1 n f). simpl in *. rewrite H. lra. }
  induction q; intros [|p0 p]; cbn [length].
  - reflexivity.
  - reflexivity.
  - rewrite sum_zero; [reflexivity|]. intros. destruct i; simpl; lra.
  - rewrite G. unfold dot in *. cbn [combine map fold_right fst snd nth]. rewrite IHq. reflexivity.
Qed.
Lemma dot_rows : forall (f : nat -> nat -> R) n p,
  dot p (rows f n) = sum n (fun d => sum (S d) (fun i => nth (tri d + i) p 0 * f d i)).
Proof.
  intros. rewrite dot_sum, rows_len. induction n; [reflexivity|].
  cbn [tri]. rewrite sum_app.
  match goal with |- _ = sum (S n) ?g => change (sum (S n) g) with (sum n g + g n) end. cbv beta. f_equal.
  - rewrite <- IHn. apply sum_ext. intros. f_equal.
    rewrite rows_S, app_nth1; [reflexivity|]. rewrite rows_len. lia.
  - apply (sum_ext (S n)). intros. f_equal. rewrite rows_nth by lia. reflexivity.
Qed.

Lemma dot_put : forall k p q t, (k < length p)%nat -> (k < length q)%nat ->
  dot (firstn k p ++ t :: skipn (S k) p) q = dot p q - nth k p 0 * nth k q 0 + t * nth k q 0.
Proof.
  unfold dot. induction k; intros [|a p] [|b q] t P Q; cbn [length] in *; try lia.
  - cbn. ring.
  - change (skipn (S (S k)) (a :: p)) with (skipn (S k) p). cbn [firstn app combine map fold_right fst snd nth].
    rewrite IHk by lia. ring.
Qed.

(** The result is the polynomial; the partial to parameter tri d + i is x^(d-i) y^i; there are as many parameters as
    partials. *)
Theorem C55_result : forall degree x y params, baseResult degree x y params = poly degree (fun k => nth k params 0) x y.
Proof.
  intros. unfold baseResult. fold (dot params (basePartial degree x y)). rewrite part_rows, dot_rows. unfold poly.
  apply sum_ext. intros. apply sum_ext. intros. rewrite (Rmult_comm (x ^ _)). reflexivity.
Qed.

Theorem C55_partials : forall degree x y,
  length (basePartial degree x y) = npars degree /\
  forall d i, (d <= degree)%nat -> (i <= d)%nat ->
    nth (tri d + i) (basePartial degree x y) 0 = x ^ (d - i) * y ^ i /\
    forall params : list R, length params = npars degree ->
      is_derive (fun t : R => baseResult degree x y (firstn (tri d + i) params ++ t :: skipn (S (tri d + i)) params))
                (nth (tri d + i) params 0) (nth (tri d + i) (basePartial degree x y) 0).
Proof.
  intros. rewrite part_rows. split; [rewrite rows_len, npars_tri; reflexivity|].
  intros. split; [rewrite rows_nth by lia; apply Rmult_comm|].
  intros params L. set (k := (tri d + i)%nat).
  assert (K : (k < npars degree)%nat).
  { rewrite npars_tri. pose proof (tri_le (S d) (S degree) ltac:(lia)). cbn [tri] in *. unfold k. lia. }
  assert (E : forall t, baseResult degree x y (firstn k params ++ t :: skipn (S k) params)
     = (dot params (basePartial degree x y) - nth k params 0 * nth k (basePartial degree x y) 0) + t * nth k (basePartial degree x y) 0).
  { intros t. unfold baseResult. fold (dot (firstn k params ++ t :: skipn (S k) params) (basePartial degree x y)).
    apply dot_put; [rewrite L; exact K|]. rewrite part_rows, rows_len, <- npars_tri. exact K. }
  apply (is_derive_ext (fun t => (dot params (basePartial degree x y) - nth k params 0 * nth k (basePartial degree x y) 0)
                                  + t * nth k (basePartial degree x y) 0)).
  { intros t. symmetry. apply E. }
  rewrite <- part_rows. set (c := nth k (basePartial degree x y) 0). clearbody c. auto_derive; [exact Logic.I|]. ring.
Qed.

Lemma xloop_rows : forall m fuel n np, (m <= fuel)%nat -> np = tri (n + m) ->
  (1 <= n)%nat ->
  xloop fuel (tri n) n np = concat (map (fun d => map (fun i => (tri d + i, d - i)%nat) (seq 0 d)) (seq n m)).
Proof.
  induction m; intros fuel n np F E N.
  - destruct fuel; [reflexivity|]. simpl. rewrite Nat.add_0_r in E. subst. rewrite Nat.ltb_irrefl. reflexivity.
  - destruct fuel; [lia|]. cbn [xloop seq map concat].
    assert (tri n < np)%nat. { subst. pose proof (tri_le (S n) (n + S m) ltac:(lia)). cbn [tri] in *. lia. }
    apply Nat.ltb_lt in H. rewrite H. f_equal.
    replace (tri n + (n + 1))%nat with (tri (S n)) by (cbn [tri]; lia). replace (n + 1)%nat with (S n) by lia.
    apply IHm; [lia| |lia]. subst. f_equal. lia.
Qed.
Lemma yloop_rows : forall m fuel n np, (m <= fuel)%nat -> np = tri (n + m) -> (1 <= n)%nat ->
  yloop fuel (tri n + 1) n np = concat (map (fun d => map (fun i => (tri d + 1 + i, i + 1)%nat) (seq 0 d)) (seq n m)).
Proof.
  induction m; intros fuel n np F E N.
  - destruct fuel; [reflexivity|]. simpl. rewrite Nat.add_0_r in E. subst.
    destruct (Nat.ltb_spec (tri n + 1) (tri n)); [lia|reflexivity].
  - destruct fuel; [lia|]. cbn [yloop seq map concat].
    assert (tri n + 1 < np)%nat. { subst. pose proof (tri_le (S n) (n + S m) ltac:(lia)). cbn [tri] in *. lia. }
    apply Nat.ltb_lt in H. rewrite H. f_equal.
    replace (tri n + 1 + (n + 1))%nat with (tri (S n) + 1)%nat by (cbn [tri]; lia). replace (n + 1)%nat with (S n) by lia.
    apply IHm; [lia| |lia]. subst. f_equal. lia.
Qed.

Lemma shift_rows {A} : forall (f : nat -> nat -> A) m, concat (map (fun d => map (f d) (seq 0 d)) (seq 1 m)) = rows (fun d => f (S d)) m.
Proof. intros. unfold rows. rewrite <- seq_shift, map_map. reflexivity. Qed.

Lemma pick_rows : forall p (f : nat -> nat -> nat * nat) m,
  pick p (rows f m) = rows (fun d i => nth (fst (f d i)) p 0 * INR (snd (f d i))) m.
Proof.
  intros. induction m; [reflexivity|]. rewrite !rows_S. unfold pick in *. rewrite map_app, IHm, map_map. reflexivity.
Qed.

Lemma deriv_sum : forall n (f g : R -> nat -> R) (t : R), (forall i, (i < n)%nat -> is_derive (fun s => f s i) t (g t i)) ->
  is_derive (fun s => sum n (f s)) t (sum n (g t)).
Proof.
  induction n; intros f g t H; cbn [sum]; [apply (@is_derive_const R_AbsRing)|].
  apply (@is_derive_plus R_AbsRing); [apply IHn; intros; apply H; lia|apply H; lia].
Qed.

(** The derivative is the gradient of the result to x and y. *)
Theorem C55_derivative : forall degree (x y : R) (params : list R),
  is_derive (fun t => baseResult degree t y params) x (fst (baseDerivative degree x y params)) /\
  is_derive (fun t => baseResult degree x t params) y (snd (baseDerivative degree x y params)).
Proof.
  intros. unfold baseDerivative. rewrite npars_tri.
  destruct degree as [|m].
  { simpl. split.
    - apply (is_derive_ext (fun _ : R => baseResult 0 0 y params)).
      { intros. unfold baseResult. rewrite !part_rows. reflexivity. }
      apply (@is_derive_const R_AbsRing).
    - apply (is_derive_ext (fun _ : R => baseResult 0 x 0 params)).
      { intros. unfold baseResult. rewrite !part_rows. reflexivity. }
      apply (@is_derive_const R_AbsRing). }
  destruct (Nat.leb_spec (tri (S (S m))) 1); [cbn [tri] in H; lia|]. cbn [fst snd].
  replace (S m - 1)%nat with m by lia.
  assert (F : (S m <= tri (S (S m)))%nat) by (cbn [tri]; lia).
  split.
  - change (xloop (tri (S (S m))) 1 1 (tri (S (S m)))) with (xloop (tri (S (S m))) (tri 1) 1 (tri (S (S m)))).
    rewrite (xloop_rows (S m) _ 1 _ F) by (try lia; f_equal; lia).
    rewrite (shift_rows (fun d i => (tri d + i, d - i)%nat) (S m)), pick_rows. cbn [fst snd].
    rewrite C55_result.
    apply (is_derive_ext (fun t => poly (S m) (fun k => nth k params 0) t y)). { intros. symmetry. apply C55_result. }
    unfold poly.
    evar (l : R).
    replace (sum (S m) _) with l; unfold l.
    + apply (deriv_sum (S (S m)) (fun s d => sum (S d) (fun i => nth (tri d + i) params 0 * (s ^ (d - i) * y ^ i)))
        (fun s d => sum (S d) (fun i => nth (tri d + i) params 0 * (INR (d - i) * s ^ pred (d - i) * y ^ i)))).
      intros d _.
      apply (deriv_sum (S d) (fun s i => nth (tri d + i) params 0 * (s ^ (d - i) * y ^ i))
        (fun s i => nth (tri d + i) params 0 * (INR (d - i) * s ^ pred (d - i) * y ^ i))).
      intros i _. auto_derive; [exact Logic.I|]. ring.
    + replace (S (S m)) with (1 + S m)%nat by lia. rewrite sum_app.
      match goal with |- ?a + _ = _ => assert (Z0 : a = 0) by (cbn; ring); rewrite Z0, Rplus_0_l; clear Z0 end.
      apply sum_ext. intros d Hd. replace (1 + d)%nat with (S d) by lia.
      rewrite (sumS (S d)). replace (S d - S d)%nat with 0%nat by lia.
      match goal with |- _ + ?a = _ => assert (Z0 : a = 0) by (cbn; ring); rewrite Z0, Rplus_0_r; clear Z0 end.
      apply (sum_ext (S d)). intros i Hi. rewrite rows_nth by lia.
      replace (S d - i)%nat with (S (d - i)) by lia. cbn [pred]. ring.
  - change (yloop (tri (S (S m))) 2 1 (tri (S (S m)))) with (yloop (tri (S (S m))) (tri 1 + 1) 1 (tri (S (S m)))).
    rewrite (yloop_rows (S m) _ 1 _ F) by (try lia; f_equal; lia).
    rewrite (shift_rows (fun d i => (tri d + 1 + i, i + 1)%nat) (S m)), pick_rows. cbn [fst snd].
    rewrite C55_result.
    apply (is_derive_ext (fun t => poly (S m) (fun k => nth k params 0) x t)). { intros. symmetry. apply C55_result. }
    unfold poly.
    evar (l : R).
    replace (sum (S m) _) with l; unfold l.
    + apply (deriv_sum (S (S m)) (fun s d => sum (S d) (fun i => nth (tri d + i) params 0 * (x ^ (d - i) * s ^ i)))
        (fun s d => sum (S d) (fun i => nth (tri d + i) params 0 * (x ^ (d - i) * (INR i * s ^ pred i))))).
      intros d _.
      apply (deriv_sum (S d) (fun s i => nth (tri d + i) params 0 * (x ^ (d - i) * s ^ i))
        (fun s i => nth (tri d + i) params 0 * (x ^ (d - i) * (INR i * s ^ pred i)))).
      intros i _. auto_derive; [exact Logic.I|]. ring.
    + replace (S (S m)) with (1 + S m)%nat by lia. rewrite sum_app.
      match goal with |- ?a + _ = _ => assert (Z0 : a = 0) by (cbn; ring); rewrite Z0, Rplus_0_l; clear Z0 end.
      apply sum_ext. intros d Hd. replace (1 + d)%nat with (S d) by lia.
      change (S (S d)) with (1 + S d)%nat. rewrite sum_app.
      match goal with |- ?a + _ = _ => assert (Z0 : a = 0) by (cbn; ring); rewrite Z0, Rplus_0_l; clear Z0 end.
      apply (sum_ext (S d)). intros i Hi. rewrite rows_nth by lia.
      replace (S d - (1 + i))%nat with (d - i)%nat by lia. replace (1 + i)%nat with (S i) by lia. cbn [pred].
      replace (tri (S d) + S i)%nat with (tri (S d) + 1 + i)%nat by lia. replace (i + 1)%nat with (S i) by lia. ring.
Qed.

(** The name gives for each parameter the powers of x and y it is multiplied with. *)
Theorem C55_name : forall degree x y,
  map (fun t => snd (fst t)) (baseName degree) = map fst (rows (fun d i => (d - i, i)%nat) (S degree)) /\
  length (baseName degree) = npars degree /\
  forall k, (k < npars degree)%nat ->
    fst (fst (nth k (baseName degree) (0, 0, 0)%nat)) = k /\
    nth k (basePartial degree x y) 0
    = x ^ snd (fst (nth k (baseName degree) (0, 0, 0)%nat)) * y ^ snd (nth k (baseName degree) (0, 0, 0)%nat).
Proof.
  intros degree x y.
  assert (E : baseName degree = rows (fun d i => (tri d + i, d - i, i)%nat) (S degree)).
  { unfold baseName. assert (G : forall c d, nloop c d (tri d) = concat (map (fun d => map (fun i => (tri d + i, d - i, i)%nat) (seq 0 (S d))) (seq d c))).
    { induction c; intros; [reflexivity|]. cbn [nloop seq map concat].
      replace (tri d + S d)%nat with (tri (S d)) by reflexivity. rewrite IHc. reflexivity. }
    exact (G (S degree) 0%nat). }
  assert (M : forall {A B} (h : A -> B) f n, map h (rows f n) = rows (fun d i => h (f d i)) n).
  { intros. induction n; [reflexivity|]. rewrite !rows_S, map_app, IHn, map_map. reflexivity. }
  rewrite E. split; [rewrite !M; reflexivity|]. split; [rewrite rows_len, npars_tri; reflexivity|].
  intros k K. rewrite npars_tri in K.
  assert (D : exists d i, (d <= degree)%nat /\ (i <= d)%nat /\ k = (tri d + i)%nat).
  { clear - K. induction degree.
    - exists 0%nat, 0%nat. simpl in K. cbn [tri]. lia.
    - cbn [tri] in *. destruct (Nat.lt_ge_cases k (tri degree + S degree)) as [L|G].
      + destruct (IHdegree L) as (d & i & X). exists d, i. lia.
      + exists (S degree), (k - (tri degree + S degree))%nat. cbn [tri]. lia. }
  destruct D as (d & i & D1 & D2 & ->). rewrite part_rows, !rows_nth by lia. cbn [fst snd].
  split; [reflexivity|apply Rmult_comm].
Qed.

(** The unit of a parameter has the powers of the units of x and y interchanged: it is wrong for every parameter that
    belongs to a term in which the powers of x and y differ. *)
Theorem C55_unit_refuted : forall d i, (i <= d)%nat -> (2 * i <> d)%nat ->
  baseParameterUnit (tri d + i) = (i, d - i)%nat /\ baseParameterUnit (tri d + i) <> (d - i, i)%nat.
Proof.
  intros d i I D.
  assert (G : forall n dk fuel, (n <= fuel)%nat -> (n + dk = d)%nat -> uloop fuel (tri d - tri dk + i) dk = (i, d)).
  { induction n; intros dk fuel F E.
    - assert (dk = d) by lia. subst. rewrite Nat.sub_diag. destruct fuel; [reflexivity|]. simpl.
      destruct (Nat.ltb_spec dk i); [lia|]. reflexivity.
    - destruct fuel; [lia|]. cbn [uloop].
      pose proof (tri_le (S dk) d ltac:(lia)). cbn [tri] in H.
      destruct (Nat.ltb_spec dk (tri d - tri dk + i)).
      + replace (tri d - tri dk + i - (dk + 1))%nat with (tri d - tri (S dk) + i)%nat by (cbn [tri]; lia).
        replace (dk + 1)%nat with (S dk) by lia. apply IHn; lia.
      + lia. }
  assert (E : baseParameterUnit (tri d + i) = (i, d - i)%nat).
  { unfold baseParameterUnit. pose proof (G d 0%nat (tri d + i)%nat) as Q. cbn [tri] in Q. rewrite Nat.sub_0_r in Q.
    rewrite Q; [reflexivity| |lia]. clear. pose proof (tri_double d). destruct d; cbn [tri]; lia. }
  split; [exact E|]. rewrite E. intros Q. inversion Q. lia.
Qed.

(** f(x,y) = 1 + 2x + 3y + 4x^2 + 5xy + 6y^2 *)
Example C55_example : baseResult 2 2 3 [1; 2; 3; 4; 5; 6] = 1 + 2 * 2 + 3 * 3 + 4 * 4 + 5 * 6 + 6 * 9 /\
  baseDerivative 2 2 3 [1; 2; 3; 4; 5; 6] = (2 + 8 * 2 + 5 * 3, 3 + 5 * 2 + 12 * 3) /\
  baseParameterUnit 1 = (0, 1)%nat /\ baseParameterUnit 3 = (0, 2)%nat /\
  nth 1 (baseName 2) (0, 0, 0)%nat = (1, 1, 0)%nat.
Proof.
  unfold baseDerivative, pick, baseResult; simpl. repeat split; try lra. f_equal; lra.
Qed.
Example C55_term : nth (tri 2 + 0) (basePartial 3 7 2) 0 = 49 /\ (2 * 0 <> 2)%nat.
Proof. simpl. split; [lra|lia]. Qed.

Print Assumptions C55_result. Print Assumptions C55_partials. Print Assumptions C55_derivative. Print Assumptions C55_name.
Print Assumptions C55_unit_refuted.
