(** Proofs about tour lengths. *)
From Coq Require Import List Arith Reals Permutation Lia Lra.
From Verif Require Import L_List M_Order S_Order M_Salesman P_Order.
Import ListNotations.
Local Open Scope R_scope.

Lemma path_length_snoc {A} (d : A -> A -> R) l : forall a b h,
  path_length d a (l ++ [b]) h = path_length d a l b + d b h.
Proof.
  induction l as [|x l IH]; intros a b h; simpl; [lra|]. rewrite IH. lra.
Qed.

Lemma path_length_rev {A} (d : A -> A -> R) (Hs : forall a b, d a b = d b a) l : forall a h,
  path_length d a l h = path_length d h (rev l) a.
Proof.
  induction l as [|x l IH]; intros a h; simpl; [apply Hs|].
  rewrite path_length_snoc, IH, (Hs a x). lra.
Qed.

Lemma closed_rot1 {A} (d : A -> A -> R) a r :
  closed_length d (r ++ [a]) = closed_length d (a :: r).
Proof.
  destruct r as [|b r]; simpl; auto. rewrite path_length_snoc. lra.
Qed.

Lemma closed_rot {A} (d : A -> A -> R) (l1 l2 : list A) :
  closed_length d (l2 ++ l1) = closed_length d (l1 ++ l2).
Proof.
  revert l2; induction l1 as [|a l1 IH]; intros l2; simpl.
  - rewrite app_nil_r; auto.
  - replace (l2 ++ a :: l1) with ((l2 ++ [a]) ++ l1) by (rewrite <- app_assoc; auto).
    rewrite IH. rewrite app_assoc. apply closed_rot1.
Qed.

Lemma closed_rollneg {A} (d : A -> A -> R) k (l : list A) :
  closed_length d (rollneg k l) = closed_length d l.
Proof. unfold rollneg. rewrite closed_rot, firstn_skipn. auto. Qed.

Lemma closed_rev {A} (d : A -> A -> R) (Hs : forall a b, d a b = d b a) (l : list A) :
  closed_length d (rev l) = closed_length d l.
Proof.
  destruct l as [|a r]; simpl; auto. rewrite closed_rot1. simpl.
  symmetry. apply path_length_rev, Hs.
Qed.

Lemma path_nonneg {A} (d : A -> A -> R) (Hd : forall a b, 0 <= d a b) l : forall a h,
  0 <= path_length d a l h.
Proof.
  induction l as [|x l IH]; intros a h; simpl; auto.
  specialize (IH x h). specialize (Hd a x). lra.
Qed.

(** one leg as charged by [sp_result] for a closed tour *)
Definition leg (s : salesman) (a b : nat) : R :=
  s_dist s a b / s_scale s * match s_weights s with None => 1 | Some w => w a end.

Lemma rollneg1 {A} (a : A) r : rollneg 1 (a :: r) = r ++ [a].
Proof. reflexivity. Qed.

Lemma sum_combine_path (f : nat -> nat -> R) r : forall a h,
  sumR (map (fun '(x, y) => f x y) (combine (a :: r) (r ++ [h]))) = path_length f a r h.
Proof.
  induction r as [|b r IH]; intros a h.
  - simpl. lra.
  - simpl app. simpl combine. simpl map. simpl sumR.
    specialize (IH b h). simpl combine in IH. simpl map in IH. simpl sumR in IH.
    destruct r; simpl in *; rewrite IH; reflexivity.
Qed.

Lemma sum_distances (f : nat -> nat -> R) l :
  sumR (map (fun '(x, y) => f x y) (combine l (rollneg 1 l))) = closed_length f l.
Proof.
  destruct l as [|a r]; [reflexivity|]. rewrite rollneg1. apply sum_combine_path.
Qed.

Lemma map_combine_weights (g : nat -> nat -> R) (w : nat -> R) l : forall m,
  length m = length l ->
  map (fun '(r, k) => r * w k) (combine (map (fun '(a, b) => g a b) (combine l m)) l)
  = map (fun '(a, b) => g a b * w a) (combine l m).
Proof.
  induction l as [|a l IH]; intros [|b m] H; simpl in *; try discriminate; auto.
  f_equal. apply IH. lia.
Qed.

Lemma sp_result_legs s l :
  s_oneway s = false ->
  sp_result s l = map (fun '(a, b) => leg s a b) (combine l (rollneg 1 l)).
Proof.
  intros Ho. unfold sp_result. rewrite Ho. unfold distances, leg.
  rewrite map_map.
  assert (L : length (rollneg 1 l) = length l)
    by (symmetry; apply Permutation_length, perm_rollneg).
  destruct (s_weights s) as [w|].
  - rewrite <- (map_combine_weights (fun a b => s_dist s a b / s_scale s) w l _ L).
    f_equal. f_equal. apply map_ext. intros [a b]; auto.
  - apply map_ext. intros [a b]. lra.
Qed.

Lemma sumR_opp l : sumR (map Ropp l) = - sumR l.
Proof. induction l as [|x l IH]; simpl; [lra|]. rewrite IH. lra. Qed.

Lemma dcf_is_minus_length s l :
  s_oneway s = false -> dcf_logL s l = - closed_length (leg s) l.
Proof.
  intros Ho. unfold dcf_logL. rewrite sumR_opp, sp_result_legs, sum_distances; auto.
Qed.

Lemma dcf_alt s l : dcf_logL_alt s l = dcf_logL s l.
Proof. unfold dcf_logL_alt, dcf_logL. rewrite sumR_opp. auto. Qed.

Lemma dcf_rotation s k l : s_oneway s = false -> dcf_logL s (rollneg k l) = dcf_logL s l.
Proof.
  intros Ho. rewrite !dcf_is_minus_length by auto. rewrite closed_rollneg. auto.
Qed.

Lemma dcf_reversal s l :
  s_oneway s = false -> s_weights s = None ->
  (forall a b, s_dist s a b = s_dist s b a) -> dcf_logL s (rev l) = dcf_logL s l.
Proof.
  intros Ho Hw Hs. rewrite !dcf_is_minus_length by auto. rewrite closed_rev; auto.
  intros a b. unfold leg. rewrite Hw, Hs. auto.
Qed.

(** open tours: the way home is free *)
Lemma removelast_map_snoc {A B} (f : A -> B) l x : removelast (map f (l ++ [x])) = map f l.
Proof. rewrite map_app. simpl. rewrite removelast_last. auto. Qed.

Fixpoint open_length {A} (d : A -> A -> R) (a : A) (l : list A) : R :=
  match l with [] => 0 | b :: r => d a b + open_length d b r end.

Lemma oneway_length s a r :
  s_oneway s = true ->
  sumR (sp_result s (a :: r)) = open_length (leg s) a r.
Proof.
  intros Ho. unfold sp_result. rewrite Ho. unfold distances. rewrite rollneg1.
  assert (K : forall (f : nat -> nat -> R) r a h,
    zero_last (map (fun x => x / s_scale s) (map (fun '(x, y) => f x y) (combine (a :: r) (r ++ [h]))))
    = map (fun '(x, y) => f x y / s_scale s) (combine (a :: r) r) ++ [0]).
  { clear. intros f r. induction r as [|b r IH]; intros a h.
    - reflexivity.
    - specialize (IH b h). unfold zero_last in *.
      destruct r as [|c r]; [reflexivity|].
      cbn [combine map app removelast] in *. rewrite IH. reflexivity. }
  rewrite K. clear K.
  destruct (s_weights s) as [w|] eqn:Ew.
  - revert a. induction r as [|b r IH]; intros a; simpl; [lra|].
    unfold leg at 1. rewrite Ew.
    specialize (IH b). simpl in IH. destruct r; simpl in *; [lra|].
    rewrite <- IH. lra.
  - revert a. induction r as [|b r IH]; intros a; simpl; [lra|].
    unfold leg at 1. rewrite Ew. specialize (IH b). simpl in IH.
    destruct r; simpl in *; [lra|]. rewrite <- IH. lra.
Qed.

(** ** distances *)

Lemma sumR_nonneg l : Forall (fun x => 0 <= x) l -> 0 <= sumR l.
Proof. induction 1; simpl; lra. Qed.

Lemma manhattan1_sym x : forall y, manhattan1 x y = manhattan1 y x.
Proof.
  unfold manhattan1. induction x as [|a x IH]; intros [|b y]; simpl; auto.
  rewrite IH, Rabs_minus_sym. auto.
Qed.
Lemma manhattan1_nonneg x y : 0 <= manhattan1 x y.
Proof.
  apply sumR_nonneg. apply Forall_forall. intros r Hr. apply in_map_iff in Hr.
  destruct Hr as [[a b] [<- _]]. apply Rabs_pos.
Qed.
Lemma euclidic1_sym x y : euclidic1 x y = euclidic1 y x.
Proof.
  unfold euclidic1. f_equal. revert y.
  induction x as [|a x IH]; intros [|b y]; simpl; auto. rewrite IH. lra.
Qed.
Lemma euclidic1_nonneg x y : 0 <= euclidic1 x y.
Proof. apply sqrt_pos. Qed.

Lemma hav_sym x y : hav_a x y = hav_a y x.
Proof. destruct x, y. unfold hav_a, Rsqr. ring. Qed.
Lemma spherical1_sym x y : spherical1 x y = spherical1 y x.
Proof. unfold spherical1. rewrite hav_sym. auto. Qed.
Lemma spherical1_nonneg x y : 0 <= spherical1 x y.
Proof.
  unfold spherical1.
  assert (H0 : 0 <= sqrt (Rmin 1 (hav_a x y))) by apply sqrt_pos.
  assert (H1 : sqrt (Rmin 1 (hav_a x y)) <= 1).
  { apply Rle_trans with (sqrt 1); [apply sqrt_le_1_alt, Rmin_l|rewrite sqrt_1; lra]. }
  destruct (Rle_lt_or_eq_dec _ _ H0) as [L|E].
  - assert (0 <= asin (sqrt (Rmin 1 (hav_a x y)))); [|lra].
    rewrite <- asin_0. apply Rnot_lt_le. intros C.
    assert (B1 := asin_bound 0). assert (B2 := asin_bound (sqrt (Rmin 1 (hav_a x y)))).
    assert (S1 := sin_asin (sqrt (Rmin 1 (hav_a x y)))).
    assert (S2 := sin_asin 0).
    apply sin_increasing_1 in C; try lra.
  - rewrite <- E, asin_0. lra.
Qed.

(** ** minimum distance *)

Lemma minlist_le md l : minlist md l <= md /\ Forall (fun x => minlist md l <= x) l.
Proof.
  unfold minlist. revert md. induction l as [|x l IH]; intros md; simpl; [split; [lra|auto]|].
  destruct (IH (Rmin md x)) as [H1 H2]. split.
  - eapply Rle_trans; [exact H1|apply Rmin_l].
  - constructor; [eapply Rle_trans; [exact H1|apply Rmin_r]|exact H2].
Qed.

Lemma fold_min_le d pars ks : forall md,
  let r := fold_left (fun md k => minlist md (distances d k pars)) ks md in
  r <= md /\ forall k, In k ks -> Forall (fun x => r <= x) (distances d k pars).
Proof.
  induction ks as [|k ks IH]; intros md; simpl.
  - split; [lra|tauto].
  - destruct (IH (minlist md (distances d k pars))) as [H1 H2].
    destruct (minlist_le md (distances d k pars)) as [H3 H4].
    split; [lra|]. intros j [<-|Hj]; [|auto].
    eapply Forall_impl; [|exact H4]. simpl. intros; lra.
Qed.

Lemma nth_error_rollneg_seq n k i :
  (i < n)%nat -> (k < n)%nat ->
  nth_error (rollneg k (seq 0 n)) i = Some ((i + k) mod n)%nat.
Proof.
  intros Hi Hk. unfold rollneg.
  assert (Hl : length (skipn k (seq 0 n)) = (n - k)%nat) by (rewrite skipn_length, seq_length; auto).
  assert (Hn : forall j, (j < n)%nat -> nth_error (seq 0 n) j = Some j).
  { intros j Hj. rewrite (nth_error_nth' _ 0%nat) by (rewrite seq_length; auto).
    rewrite seq_nth; auto. }
  destruct (Nat.lt_ge_cases i (n - k)) as [L|L].
  - rewrite nth_error_app1 by lia.
    rewrite Nat.mod_small by lia.
    rewrite <- (Hn (i + k)%nat) by lia.
    rewrite <- (firstn_skipn k (seq 0 n)) at 2.
    rewrite nth_error_app2; rewrite firstn_length_le by (rewrite seq_length; lia); [|lia].
    f_equal. lia.
  - rewrite nth_error_app2 by lia. rewrite Hl.
    replace ((i + k) mod n)%nat with (i + k - n)%nat.
    2:{ symmetry. replace (i + k)%nat with ((i + k - n) + 1 * n)%nat by lia.
        rewrite Nat.mod_add by lia. rewrite Nat.mod_small; lia. }
    replace (i - (n - k))%nat with (i + k - n)%nat by lia.
    rewrite <- (Hn (i + k - n)%nat) by lia.
    rewrite <- (firstn_skipn k (seq 0 n)) at 2.
    rewrite nth_error_app1; [auto|].
    rewrite firstn_length_le by (rewrite seq_length; lia). lia.
Qed.

Lemma nth_error_combine {A B} (l : list A) : forall (m : list B) i a b,
  nth_error l i = Some a -> nth_error m i = Some b -> In (a, b) (combine l m).
Proof.
  induction l as [|x l IH]; intros [|y m] [|i] a b H1 H2; simpl in *; try discriminate.
  - injection H1 as <-. injection H2 as <-. auto.
  - right. eapply IH; eauto.
Qed.

Lemma in_distances d n k i :
  (i < n)%nat -> (k < n)%nat -> In (d i ((i + k) mod n)%nat) (distances d k (seq 0 n)).
Proof.
  intros Hi Hk. unfold distances.
  apply in_map_iff. exists (i, ((i + k) mod n)%nat). split; auto.
  eapply (nth_error_combine _ _ i).
  - rewrite (nth_error_nth' _ 0%nat) by (rewrite seq_length; auto). rewrite seq_nth; auto.
  - apply nth_error_rollneg_seq; auto.
Qed.

Lemma minimumDistance_le d n md i j :
  minimumDistance d n = Some md -> (i < n)%nat -> (j < n)%nat -> i <> j -> md <= d i j.
Proof.
  intros H Hi Hj Hn. unfold minimumDistance in H.
  destruct (distances d 1 (seq 0 n)) as [|x r] eqn:E; [discriminate|].
  injection H as <-.
  assert (Hk : exists k, (1 <= k < n)%nat /\ ((i + k) mod n)%nat = j).
  { destruct (Nat.lt_ge_cases i j) as [L|L].
    - exists (j - i)%nat. split; [lia|]. replace (i + (j - i))%nat with j by lia.
      apply Nat.mod_small; lia.
    - exists (n - i + j)%nat. split; [lia|].
      replace (i + (n - i + j))%nat with (j + 1 * n)%nat by lia.
      rewrite Nat.mod_add by lia. apply Nat.mod_small; lia. }
  destruct Hk as (k & Hk & <-).
  assert (Hin := in_distances d n k i Hi (proj2 Hk)).
  destruct (fold_min_le d (seq 0 n) (seq 2 (n - 2)) (minlist x r)) as [F1 F2].
  destruct (Nat.eq_dec k 1) as [->|Hk1].
  - rewrite E in Hin. destruct (minlist_le x r) as [M1 M2].
    destruct Hin as [<-|Hin]; [lra|].
    rewrite Forall_forall in M2. specialize (M2 _ Hin). lra.
  - specialize (F2 k). rewrite Forall_forall in F2. apply F2; auto.
    apply in_seq. lia.
Qed.

Lemma combine_next_distinct l : NoDup l -> (2 <= length l)%nat ->
  forall a b, In (a, b) (combine l (rollneg 1 l)) -> a <> b /\ In a l /\ In b (l : list nat).
Proof.
  intros N L a b H.
  assert (Hin : In a l) by (eapply in_combine_l; eauto).
  assert (Hinb : In b l).
  { eapply Permutation_in; [symmetry; apply (perm_rollneg 1)|]. eapply in_combine_r; eauto. }
  split; [|split]; auto.
  destruct l as [|x r]; simpl in L; [lia|]. rewrite rollneg1 in H.
  assert (K : forall r x h, NoDup (x :: r) -> (r <> [] -> ~ In h r) -> (r = [] -> h <> x) ->
              In (a, b) (combine (x :: r) (r ++ [h])) -> a <> b).
  { clear. induction r as [|y r IH]; intros x h N H1 H2 H; simpl in *.
    - destruct H as [H|[]]. injection H as <- <-. intros E; apply H2; auto.
    - inversion N as [|? ? Nx Nr]; subst.
      destruct H as [H|H].
      + injection H as <- <-. intros ->. apply Nx. left; auto.
      + eapply (IH y h); eauto.
        * intros Hr Hh. apply (H1); [discriminate|]. right; auto.
        * intros Hr. subst r. intros ->. apply H1; [discriminate|]. left; auto. }
  eapply (K r x x); eauto.
  - intros _. inversion N; auto.
  - intros ->. simpl in L. lia.
Qed.

Lemma legs_at_least_one s n l md :
  s_oneway s = false -> s_weights s = None ->
  minimumDistance (s_dist s) n = Some md -> s_scale s = md -> 0 < md ->
  (2 <= n)%nat -> is_tour n l ->
  Forall (fun r => 1 <= r) (sp_result s l).
Proof.
  intros Ho Hw Hm Hsc Hp Hn Ht. rewrite sp_result_legs by auto.
  apply Forall_forall. intros x Hx. apply in_map_iff in Hx.
  destruct Hx as [[a b] [<- Hin]].
  assert (Hlen : length l = n) by (apply tour_length; auto).
  assert (Nd : NoDup l) by (eapply Permutation_NoDup; [exact Ht|apply seq_NoDup]).
  destruct (combine_next_distinct l Nd ltac:(lia) a b Hin) as (Hab & Ha & Hb).
  assert (Hr : forall c, In c l -> (c < n)%nat).
  { intros c Hc. eapply Permutation_in in Hc; [|symmetry; exact Ht]. apply in_seq in Hc. lia. }
  unfold leg. rewrite Hw, Hsc.
  assert (D := minimumDistance_le _ _ _ a b Hm (Hr a Ha) (Hr b Hb) Hab).
  apply Rmult_le_reg_r with md; auto. field_simplify; lra.
Qed.
