(** Lemmas on the knot functions of splinelab.py. *)
From Coq Require Import List Arith Reals Bool Lia Lra.
From Verif Require Import M_BSpline P_BSpline2 M_Knots.
Import ListNotations.
Local Open Scope R_scope.

Lemma foldl_plus l a : fold_left Rplus l a = a + fold_right Rplus 0 l.
Proof. revert a; induction l as [|x l IH]; intro a; cbn; [lra|]. rewrite IH. lra. Qed.
Lemma rsum_right l : rsum l = fold_right Rplus 0 l.
Proof. unfold rsum. rewrite foldl_plus. lra. Qed.

Lemma window (t : list R) j k : (j + k <= length t)%nat -> firstn k (skipn j t) = map (fun i => nth i t 0) (seq j k).
Proof.
  revert j; induction k as [|k IH]; intros j H; [reflexivity|].
  cbn [seq map]. rewrite <- (IH (S j)) by lia.
  assert (E : skipn j t = nth j t 0 :: skipn (S j) t).
  { clear IH. revert j H; induction t as [|a t IHt]; intros j H; [cbn in H; lia|]. destruct j as [|j]; [reflexivity|].
    cbn [skipn nth]. rewrite IHt by (cbn in H; lia). reflexivity. }
  rewrite E. reflexivity.
Qed.

Lemma sum_bounds lo hi l : (forall x, In x l -> lo <= x <= hi) -> lo * INR (length l) <= fold_right Rplus 0 l <= hi * INR (length l).
Proof.
  induction l as [|a l IH]; intro H; [cbn; lra|].
  change (fold_right Rplus 0 (a :: l)) with (a + fold_right Rplus 0 l).
  change (length (a :: l)) with (S (length l)). rewrite S_INR.
  specialize (IH (fun x Hx => H x (or_intror Hx))). specialize (H a (or_introl eq_refl)). lra.
Qed.
Lemma sum_low lo l : l <> [] -> (forall x, In x l -> lo < x) -> lo * INR (length l) < fold_right Rplus 0 l.
Proof.
  induction l as [|a l IH]; intros N H; [congruence|].
  change (fold_right Rplus 0 (a :: l)) with (a + fold_right Rplus 0 l).
  change (length (a :: l)) with (S (length l)). rewrite S_INR.
  pose proof (H a (or_introl eq_refl)) as Ha.
  destruct l as [|b l]; [cbn; lra|].
  specialize (IH ltac:(discriminate) (fun x Hx => H x (or_intror Hx))). lra.
Qed.
Lemma sum_high hi l : l <> [] -> (forall x, In x l -> x < hi) -> fold_right Rplus 0 l < hi * INR (length l).
Proof.
  induction l as [|a l IH]; intros N H; [congruence|].
  change (fold_right Rplus 0 (a :: l)) with (a + fold_right Rplus 0 l).
  change (length (a :: l)) with (S (length l)). rewrite S_INR.
  pose proof (H a (or_introl eq_refl)) as Ha.
  destruct l as [|b l]; [cbn; lra|].
  specialize (IH ltac:(discriminate) (fun x Hx => H x (or_intror Hx))). lra.
Qed.
Lemma sum_mono (f g : nat -> R) l : (forall i, In i l -> f i <= g i) -> fold_right Rplus 0 (map f l) <= fold_right Rplus 0 (map g l).
Proof.
  induction l as [|a l IH]; intro H; [cbn; lra|]. cbn. specialize (IH (fun x Hx => H x (or_intror Hx))). specialize (H a (or_introl eq_refl)). lra.
Qed.

Lemma rises_spec l : rises l = true <-> (forall i j, (i <= j < length l)%nat -> nth i l 0 <= nth j l 0).
Proof.
  induction l as [|a l IH].
  - split; [intros _ i j H; cbn in H; lia|reflexivity].
  - destruct l as [|b r].
    + split; [|reflexivity]. intros _ i j H. cbn in H. assert (i = 0)%nat by lia. assert (j = 0)%nat by lia. subst. lra.
    + change (rises (a :: b :: r)) with (andb (if Rle_dec a b then true else false) (rises (b :: r))).
      rewrite Bool.andb_true_iff, IH. split.
      * intros [H1 H2] i j H. destruct (Rle_dec a b) as [L|]; [|discriminate].
        destruct j as [|j]; [assert (i = 0)%nat by lia; subst; lra|].
        destruct i as [|i]; [|apply (H2 i j); cbn in H |- *; lia].
        assert (b <= nth j (b :: r) 0) by (apply (H2 0%nat j); cbn in H |- *; lia).
        change (a <= nth j (b :: r) 0). lra.
      * intro H. split.
        -- destruct (Rle_dec a b) as [|N]; [reflexivity|]. exfalso. apply N. apply (H 0%nat 1%nat). cbn; lia.
        -- intros i j Hij. apply (H (S i) (S j)). cbn in *; lia.
Qed.

(** The inner sites *)
Lemma inner_length (tau : list R) : length (removelast (tl tau)) = (length tau - 2)%nat.
Proof.
  destruct tau as [|a t]; [reflexivity|]. cbn [tl length]. destruct t as [|b r]; [reflexivity|].
  assert (E : forall l : list R, length (removelast l) = (length l - 1)%nat).
  { induction l as [|x [|y l] IH]; [reflexivity..|]. change (removelast (x :: y :: l)) with (x :: removelast (y :: l)). cbn [length] in *. rewrite IH. lia. }
  rewrite E. cbn [length]. lia.
Qed.
Lemma removelast_nth (l : list R) i : (i < length l - 1)%nat -> nth i (removelast l) 0 = nth i l 0.
Proof.
  revert i; induction l as [|x [|y l] IH]; intros i H; [cbn in H; lia|cbn in H; lia|].
  change (removelast (x :: y :: l)) with (x :: removelast (y :: l)).
  destruct i as [|i]; [reflexivity|]. cbn [nth]. rewrite IH by (cbn [length] in *; lia). reflexivity.
Qed.
Lemma inner_nth (tau : list R) i : (i < length tau - 2)%nat -> nth i (removelast (tl tau)) 0 = nth (S i) tau 0.
Proof.
  intro H. destruct tau as [|a t]; [cbn in H; lia|]. cbn [tl]. rewrite removelast_nth by (cbn [length] in H; lia). reflexivity.
Qed.

Lemma last_nth' (l : list R) : last l 0 = nth (length l - 1) l 0.
Proof.
  induction l as [|a [|b l] IH]; [reflexivity|reflexivity|]. change (last (a :: b :: l) 0) with (last (b :: l) 0). rewrite IH.
  cbn [length]. replace (S (S (length l)) - 1)%nat with (S (S (length l) - 1)) by lia. reflexivity.
Qed.

Lemma nth_map_seq (f : nat -> R) a n i : (i < n)%nat -> nth i (map f (seq a n)) 0 = f (a + i)%nat.
Proof.
  intro H. rewrite (nth_indep _ 0 (f 0%nat)) by (rewrite map_length, seq_length; exact H).
  rewrite map_nth, seq_nth by exact H. reflexivity.
Qed.
Lemma nth_repeat' (x : R) n i : (i < n)%nat -> nth i (repeat x n) 0 = x.
Proof. revert i; induction n as [|n IH]; intros i H; [lia|]. destruct i; [reflexivity|]. cbn. apply IH. lia. Qed.

Definition meanOf (f : nat -> R) (a m : nat) : R := fold_right Rplus 0 (map f (seq a m)) / INR m.

Lemma aveknt_nth t k out : aveknt t k = Some out -> (1 <= k)%nat /\ length out = (length t - (k - 1))%nat /\
  forall j, (j < length out)%nat -> nth j out 0 = meanOf (fun i => nth i t 0) j k.
Proof.
  unfold aveknt. destruct (Nat.eqb_spec k 0) as [->|K]; [discriminate|]. intro E. injection E as <-.
  split; [lia|]. rewrite map_length, seq_length. split; [reflexivity|]. intros j Hj.
  rewrite nth_map_seq by exact Hj. cbn [Nat.add]. unfold meanOf. rewrite rsum_right, window by lia. reflexivity.
Qed.

Lemma aptknt_nth tau order kn : aptknt tau order = Some kn ->
  let n := length tau in let k := Nat.min (S order) n in
  (2 <= k)%nat /\ rises tau = true /\ length kn = (n + k)%nat /\
  (forall i, (i < k)%nat -> nth i kn 0 = nth 0 tau 0) /\
  (forall i, (k <= i < n)%nat -> nth i kn 0 = meanOf (fun i => nth i tau 0) (i - k + 1) (k - 1)) /\
  (forall i, (n <= i < n + k)%nat -> nth i kn 0 = nth (n - 1) tau 0).
Proof.
  intros E n k. unfold aptknt in E. fold n in E. fold k in E.
  assert (Kn : (k <= n)%nat) by (subst k; lia). clearbody k. assert (N : length tau = n) by reflexivity. clearbody n.
  destruct (rises tau) eqn:Ri; [|discriminate]. cbn [negb] in E.
  destruct (existsb _ _); [discriminate|]. destruct tau as [|t0 r] eqn:T; [discriminate|]. rewrite <- T in *.
  destruct k as [|k']; [discriminate|].
  destruct (aveknt (removelast (tl tau)) k') as [mid|] eqn:A; [|discriminate].
  assert (EK : kn = repeat t0 (S k') ++ mid ++ repeat (last tau 0) (S k')) by (symmetry; exact (f_equal (fun o => match o with Some u => u | None => [] end) E)). clear E. subst kn.
  destruct (aveknt_nth _ _ _ A) as (K1 & Lm & Hm). rewrite inner_length, N in Lm.
  split; [lia|]. split; [reflexivity|].
  assert (Lm' : length mid = (n - S k')%nat) by lia.
  split; [rewrite !app_length, !repeat_length; lia|].
  split; [|split].
  - intros i Hi. rewrite app_nth1 by (rewrite repeat_length; lia). rewrite nth_repeat' by exact Hi. rewrite T. reflexivity.
  - intros i Hi. rewrite app_nth2, repeat_length by (rewrite repeat_length; lia). rewrite app_nth1 by lia.
    rewrite Hm by lia. unfold meanOf. replace (S k' - 1)%nat with k' by lia. f_equal.
    replace (i - S k' + 1)%nat with (S (i - S k')) by lia. rewrite <- seq_shift, map_map. f_equal. apply map_ext_in.
    intros j Hj. apply in_seq in Hj. apply inner_nth. rewrite N. lia.
  - intros i Hi. rewrite app_nth2, repeat_length by (rewrite repeat_length; lia). rewrite app_nth2 by lia.
    rewrite nth_repeat' by lia. rewrite <- N. apply last_nth'.
Qed.

(** Multiplicities *)
Definition times (x : R) (l : list R) : nat := length (filter (fun y => if Req_EM_T x y then true else false) l).

Lemma times_app x a b : times x (a ++ b) = (times x a + times x b)%nat.
Proof. unfold times. rewrite filter_app, app_length. reflexivity. Qed.

Lemma mlt_length e c t : length (mlt e c t) = length t.
Proof.
  revert e c; induction t as [|x r IH]; intros e c; [reflexivity|]. cbn.
  destruct e as [y|]; [destruct (Req_EM_T x y)|]; cbn; rewrite IH; reflexivity.
Qed.

(** The state of the loop after the items p: e the last of them and count one less than the times it was seen *)
Lemma mlt_nth t : forall p y i, (forall u v, (u <= v < length (p ++ y :: t))%nat -> nth u (p ++ y :: t) 0 <= nth v (p ++ y :: t) 0) ->
  (i < length t)%nat -> nth i (mlt (Some y) (times y p) t) 0%nat = times (nth i t 0) ((p ++ [y]) ++ firstn i t).
Proof.
  induction t as [|x r IH]; intros p y i Up Hi; [cbn in Hi; lia|].
  cbn [mlt].
  assert (Up' : forall u v, (u <= v < length ((p ++ [y]) ++ x :: r))%nat -> nth u ((p ++ [y]) ++ x :: r) 0 <= nth v ((p ++ [y]) ++ x :: r) 0).
  { rewrite <- app_assoc. cbn [app]. exact Up. }
  destruct (Req_EM_T x y) as [->|N].
  - assert (E : S (times y p) = times y (p ++ [y])).
    { rewrite times_app. unfold times at 3. cbn. destruct (Req_EM_T y y); [cbn; lia|congruence]. }
    destruct i as [|i]; [cbn [nth firstn]; rewrite app_nil_r; exact E|].
    cbn [nth firstn]. rewrite E. rewrite (IH (p ++ [y]) y i Up') by (cbn in Hi; lia).
    rewrite <- (app_assoc (p ++ [y]) [y]). reflexivity.
  - assert (Z : times x (p ++ [y]) = 0%nat).
    { unfold times. rewrite (proj2 (List.length_zero_iff_nil _)); [reflexivity|].
      assert (In0 : forall z, In z (p ++ [y]) -> z < x).
      { intros z Hz. assert (Yx : y < x).
        { assert (y <= x); [|lra].
          specialize (Up (length p) (S (length p))). rewrite !app_length in Up. cbn [length] in Up.
          rewrite !app_nth2 in Up by lia. rewrite Nat.sub_diag in Up. replace (S (length p) - length p)%nat with 1%nat in Up by lia.
          apply Up. lia. }
        destruct (In_nth _ _ 0 Hz) as (u & Hu & <-). rewrite app_length in Hu. cbn [length] in Hu.
        assert (nth u (p ++ [y]) 0 <= y); [|lra].
        specialize (Up u (length p)). rewrite app_length in Up. cbn [length] in Up.
        replace (p ++ y :: x :: r) with ((p ++ [y]) ++ x :: r) in Up by (rewrite <- app_assoc; reflexivity).
        rewrite !(app_nth1 (p ++ [y])) in Up by (rewrite app_length; cbn; lia).
        rewrite (@app_nth2 R p [y] 0 (length p)) in Up by lia. rewrite Nat.sub_diag in Up. apply Up. lia. }
      revert In0. generalize (p ++ [y]). induction l as [|z l IHl]; intro H; [reflexivity|]. cbn.
      destruct (Req_EM_T x z) as [->|_]; [exfalso; specialize (H z (or_introl eq_refl)); lra|]. apply IHl. intros; apply H; right; assumption. }
    destruct i as [|i]; [cbn [nth firstn]; rewrite app_nil_r; symmetry; exact Z|].
    cbn [nth firstn]. rewrite <- Z at 1. rewrite (IH (p ++ [y]) x i Up') by (cbn in Hi; lia).
    rewrite <- (app_assoc (p ++ [y]) [x]). reflexivity.
Qed.

Lemma knt2mlt_nth t i : rises t = true -> (i < length t)%nat -> nth i (knt2mlt t) 0%nat = times (nth i t 0) (firstn i t).
Proof.
  intros Up Hi. destruct t as [|y r]; [cbn in Hi; lia|]. unfold knt2mlt. cbn [mlt].
  destruct i as [|i]; [reflexivity|]. cbn [nth firstn].
  change 0%nat with (times y []) at 1. rewrite (mlt_nth r [] y i); [reflexivity| |cbn in Hi; lia].
  exact (proj1 (rises_spec (y :: r)) Up).
Qed.

(** Nothing at or above the last knot *)
Lemma zip_zeros (f : R -> R -> R) a b : (forall x y, In x a -> In y b -> f x y = 0) -> Forall (fun z => z = 0) (zip f a b).
Proof.
  intro H. unfold zip. apply Forall_map, Forall_forall. intros [x y] I. cbn.
  apply H; [exact (in_combine_l _ _ _ _ I)|exact (in_combine_r _ _ _ _ I)].
Qed.
Lemma In_firstn {A} n (l : list A) x : In x (firstn n l) -> In x l.
Proof. intro H. rewrite <- (firstn_skipn n l). apply in_or_app. left; exact H. Qed.
Lemma In_skipn {A} n (l : list A) x : In x (skipn n l) -> In x l.
Proof. intro H. rewrite <- (firstn_skipn n l). apply in_or_app. right; exact H. Qed.

Lemma basis_zero t order x p : (forall k, In k t -> k <= x) -> Forall (fun z => z = 0) (basis (Bspline t order false) x p).
Proof.
  intro H. induction p as [|q IH].
  - cbn [basis]. unfold basis0, upper. cbn [Bspline lastkn kv]. unfold zip. apply Forall_map, Forall_forall. intros [lo up] I. cbn [fst snd].
    destruct (Rle_dec lo x); [|reflexivity]. apply in_combine_r in I. apply in_map_iff in I. destruct I as (k & <- & Ik).
    apply In_skipn in Ik. specialize (H k Ik). destruct (Rlt_dec x k); [lra|reflexivity].
  - cbn [basis]. unfold terms. cbn [kv Bspline]. apply zip_zeros. intros a b Ia Ib.
    rewrite Forall_forall in IH.
    assert (forall g h z, (forall u, In u h -> u = 0) -> In z (zip Rmult g h) -> z = 0) as Z.
    { intros g h z Hh Iz. unfold zip in Iz. apply in_map_iff in Iz. destruct Iz as ([u v] & <- & I). cbn. rewrite (Hh v); [ring|]. exact (in_combine_r _ _ _ _ I). }
    rewrite (Z _ _ a (fun u Hu => IH u (In_firstn _ _ _ Hu)) Ia), (Z _ _ b (fun u Hu => IH u (In_skipn _ _ _ Hu)) Ib). ring.
Qed.
