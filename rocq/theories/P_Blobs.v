(** Proofs about the blobs of BasicSplinesModel. *)
From Coquelicot Require Import Coquelicot.
From Coq Require Import Reals List ZArith Bool Arith Lra Lia.
From Verif Require Import M_Blobs.
Import ListNotations.
Local Open Scope R_scope.

(** ** Sums *)
Lemma sumn_ext n f g : (forall i, (i < n)%nat -> f i = g i) -> sumn n f = sumn n g.
Proof. induction n as [|n IH]; intro H; [reflexivity|]. cbn. rewrite IH by (intros; apply H; lia). rewrite H by lia. reflexivity. Qed.
Lemma sumn_0 n f : (forall i, (i < n)%nat -> f i = 0) -> sumn n f = 0.
Proof. induction n as [|n IH]; intro H; [reflexivity|]. cbn. rewrite IH by (intros; apply H; lia). rewrite H by lia. ring. Qed.
Lemma sumn_split a b f : sumn (a + b) f = sumn a f + sumn b (fun i => f (a + i)%nat).
Proof. induction b as [|b IH]; [rewrite Nat.add_0_r; cbn; ring|]. rewrite Nat.add_succ_r. cbn. rewrite IH. ring. Qed.
Lemma sumn_plus n f g : sumn n (fun i => f i + g i) = sumn n f + sumn n g.
Proof. induction n as [|n IH]; cbn; [ring|]. rewrite IH. ring. Qed.
Lemma sumn_scal n c f : sumn n (fun i => c * f i) = c * sumn n f.
Proof. induction n as [|n IH]; cbn; [ring|]. rewrite IH. ring. Qed.
Lemma sumn_swap n m f : sumn n (fun i => sumn m (fun j => f i j)) = sumn m (fun j => sumn n (fun i => f i j)).
Proof.
  induction n as [|n IH]; cbn [sumn].
  - symmetry. apply sumn_0. reflexivity.
  - rewrite IH. rewrite <- sumn_plus. reflexivity.
Qed.

(** ** Derivatives of polynomials *)
Fixpoint falling (i k : nat) : nat := match k with O => 1%nat | S k' => (falling i k' * (i - k'))%nat end.

Lemma falling_zero i k : (i < k)%nat -> falling i k = 0%nat.
Proof.
  induction k as [|k IH]; [lia|]. intro H. cbn. destruct (Nat.eq_dec i k) as [-> |N]; [rewrite Nat.sub_diag; lia|]. rewrite IH by lia. reflexivity.
Qed.

(** the q-th derivative at x of the polynomial with n coefficients c *)
Definition D (n q : nat) (c : nat -> R) (x : R) : R := sumn n (fun i => c i * INR (falling i q) * x ^ (i - q)).

Lemma D_0 n c x : D (S n) 0 c x = poly n c x.
Proof. unfold D, poly. apply sumn_ext. intros i _. cbn [falling]. rewrite Nat.sub_0_r. cbn [INR]. ring. Qed.

Lemma sumn_derive n (f f' : nat -> R -> R) x : (forall i, (i < n)%nat -> is_derive (f i) x (f' i x)) ->
  is_derive (fun t => sumn n (fun i => f i t)) x (sumn n (fun i => f' i x)).
Proof.
  induction n as [|n IH]; intro H; cbn [sumn].
  - apply (is_derive_const (K := R_AbsRing) (V := R_NormedModule) 0 x).
  - apply (is_derive_plus (fun t => sumn n (fun i => f i t)) (f n)); [apply IH; intros; apply H; lia|apply H; lia].
Qed.

Lemma D_derive n q c x : is_derive (D n q c) x (D n (S q) c x).
Proof.
  unfold D. apply (sumn_derive n (fun i t => c i * INR (falling i q) * t ^ (i - q)) (fun i t => c i * INR (falling i (S q)) * t ^ (i - S q))).
  intros i _. cbn [falling]. rewrite mult_INR. replace (i - S q)%nat with (Nat.pred (i - q)) by lia.
  auto_derive; [auto|]. ring.
Qed.

Lemma D_lin n q m (c : nat -> nat -> R) (p : nat -> R) x :
  D n q (fun i => sumn m (fun k => c k i * p k)) x = sumn m (fun k => D n q (c k) x * p k).
Proof.
  unfold D. induction m as [|m IH]; cbn [sumn].
  - apply sumn_0. intros. ring.
  - rewrite <- IH. rewrite (Rmult_comm (sumn n _) (p m)), <- sumn_scal, <- sumn_plus. apply sumn_ext. intros. ring.
Qed.

Lemma D_ext n q c c' x : (forall i, (i < n)%nat -> c i = c' i) -> D n q c x = D n q c' x.
Proof. intro H. unfold D. apply sumn_ext. intros i I. rewrite H by exact I. reflexivity. Qed.
Lemma D_zero n q c x : (forall i, (i < n)%nat -> c i = 0) -> D n q c x = 0.
Proof. intro H. unfold D. apply sumn_0. intros i I. rewrite H by exact I. ring. Qed.

(** ** The rows *)
Lemma mod_shift k0 i t : (i < k0)%nat -> (t <= i)%nat -> ((i + (k0 - t mod k0)) mod k0 = i - t)%nat.
Proof.
  intros I T. rewrite (Nat.mod_small t) by lia. destruct (Nat.eq_dec t 0) as [-> |N].
  - replace (i + (k0 - 0))%nat with (i + 1 * k0)%nat by lia. rewrite Nat.mod_add by lia. rewrite Nat.mod_small by lia. lia.
  - replace (i + (k0 - t))%nat with ((i - t) + 1 * k0)%nat by lia. rewrite Nat.mod_add by lia. apply Nat.mod_small. lia.
Qed.

Lemma rolled_val k0 d : forall k i, (i < k0)%nat -> (k <= i)%nat -> rolled k0 d k i = d ^ (i - k).
Proof.
  induction k as [|k IH]; intros i I K; cbn [rolled]; [rewrite Nat.sub_0_r; reflexivity|].
  unfold rollf. rewrite mod_shift by lia. rewrite IH by lia. f_equal. lia.
Qed.

Lemma factors_val k0 : forall k i, (i < k0)%nat -> factors k0 k i = INR (falling i k).
Proof.
  induction k as [|k IH]; intros i I; cbn [factors falling]; [reflexivity|]. rewrite IH by exact I. rewrite mult_INR.
  destruct (Nat.le_gt_cases k i) as [K|K].
  - unfold rollf. rewrite mod_shift by lia. reflexivity.
  - rewrite (falling_zero i k K). cbn. ring.
Qed.

Lemma drow_val k0 d k i : (i < k0)%nat -> drow k0 d k i = INR (falling i k) * d ^ (i - k).
Proof.
  intro I. unfold drow. rewrite factors_val by exact I. destruct (Nat.le_gt_cases k i) as [K|K].
  - rewrite rolled_val by assumption. ring.
  - rewrite (falling_zero i k K). cbn. ring.
Qed.

Lemma drow_dot k0 d k c : sumn k0 (fun i => drow k0 d k i * c i) = D k0 k c d.
Proof. unfold D. apply sumn_ext. intros i I. rewrite drow_val by exact I. ring. Qed.

(** ** Blocks in a row *)
Definition blk (w off : nat) (v : nat -> R) (j : nat) : R := if andb (Nat.leb off j) (Nat.ltb j (off + w)) then v (j - off)%nat else 0.

Lemma blk_dot w off v n b : (off + w <= n)%nat -> sumn n (fun j => blk w off v j * b j) = sumn w (fun i => v i * b (off + i)%nat).
Proof.
  intro H. replace n with (off + (w + (n - off - w)))%nat by lia. rewrite !sumn_split.
  rewrite (sumn_0 off), (sumn_0 (n - off - w)).
  - rewrite Rplus_0_l, Rplus_0_r. apply sumn_ext. intros i I. unfold blk.
    destruct (Nat.leb_spec off (off + i)); [|lia]. destruct (Nat.ltb_spec (off + i) (off + w)); [|lia]. cbn [andb]. f_equal. f_equal. lia.
  - intros i I. unfold blk. destruct (Nat.leb_spec off (off + (w + i))); [|lia]. destruct (Nat.ltb_spec (off + (w + i)) (off + w)); [lia|]. cbn [andb]. ring.
  - intros i I. unfold blk. destruct (Nat.leb_spec off i); [lia|]. cbn [andb]. ring.
Qed.

Lemma setBlock_other w m r off v i j : i <> r -> setBlock w m r off v i j = m i j.
Proof. intro H. unfold setBlock. destruct (Nat.eqb_spec i r); [contradiction|reflexivity]. Qed.
Lemma setBlock_same w m r off v j : setBlock w m r off v r j = if andb (Nat.leb off j) (Nat.ltb j (off + w)) then v (j - off)%nat else m r j.
Proof. unfold setBlock. rewrite Nat.eqb_refl. reflexivity. Qed.

Lemma fold_other {A} (F : mat -> A -> mat) (l : list A) M r :
  (forall a M j, In a l -> F M a r j = M r j) -> forall j, fold_left F l M r j = M r j.
Proof.
  revert M. induction l as [|a l IH]; intros M H j; [reflexivity|]. cbn. rewrite IH by (intros; apply H; right; assumption).
  apply H. left. reflexivity.
Qed.

(** in a fold over 0..n-1 only turn q touches row r *)
Lemma fold_once (F : mat -> nat -> mat) n q M r : (q < n)%nat ->
  (forall a M j, (a < n)%nat -> a <> q -> F M a r j = M r j) ->
  exists M', (forall j, M' r j = M r j) /\ forall j, fold_left F (seq 0 n) M r j = F M' q r j.
Proof.
  intros Q H. replace n with (q + (1 + (n - q - 1)))%nat by lia. rewrite !seq_app, !fold_left_app. cbn [seq Nat.add fold_left].
  exists (fold_left F (seq 0 q) M). split.
  - apply fold_other. intros a M' j I. apply in_seq in I. apply H; lia.
  - apply fold_other. intros a M' j I. apply in_seq in I. apply H; lia.
Qed.

Section Find.
Context (order border m : nat) (dist : nat -> R) (kpar : nat) (k_a k_b : R).
Let k0 := S order.
Let np := (m * k0)%nat.
Context (M1 : (1 <= m)%nat).
Let ns := nstart order border kpar.
Set Default Proof Using "All".

Lemma ns_le : (ns <= order)%nat.
Proof. unfold ns, nstart. destruct (Nat.eqb border 0); lia. Qed.
Lemma np_eq : np = ((m - 1) * order + (m - 1) + k0)%nat.
Proof. unfold np. replace m with (S (m - 1)) at 1 by lia. unfold k0. rewrite Nat.mul_succ_l, Nat.mul_succ_r. reflexivity. Qed.

Lemma k0_le : (k0 <= np)%nat.
Proof. rewrite np_eq. apply Nat.le_add_l. Qed.

Lemma start_row r : (r < ns)%nat -> forall j, startRows order border kpar r j = blk k0 0 (drow k0 0 r) j.
Proof.
  intros H j. unfold startRows. fold k0 ns.
  destruct (fold_once (fun M n => setBlock k0 M n 0 (drow k0 0 n)) ns r (fun _ _ => 0) r H) as (M' & E1 & E2).
  - intros a M j' A N. apply setBlock_other. congruence.
  - rewrite E2, setBlock_same, E1. reflexivity.
Qed.

Lemma start_row_0 r : (ns <= r)%nat -> forall j, startRows order border kpar r j = 0.
Proof.
  intros H j. unfold startRows. fold k0 ns.
  apply (fold_other (fun M n => setBlock k0 M n 0 (drow k0 0 n)) (seq 0 ns) (fun _ _ => 0) r).
  intros a M j' A. apply in_seq in A. apply setBlock_other. lia.
Qed.

Lemma startLast_row r : r <> (np - 1)%nat -> forall j, startLast order border m kpar r j = startRows order border kpar r j.
Proof. intros H j. unfold startLast. destruct (Nat.eqb _ 0); [|reflexivity]. apply setBlock_other. exact H. Qed.

Lemma joinRows_other M s r j : r <> (np - 1)%nat -> (r < ns + s * order \/ ns + (s + 1) * order <= r)%nat ->
  joinRows order border m dist kpar M s r j = M r j.
Proof.
  intros H1 H2. unfold joinRows. fold k0 np ns.
  rewrite (fold_other _ (seq 0 order)).
  - destruct (Nat.ltb _ _); [apply setBlock_other; exact H1|reflexivity].
  - intros k M' j' K. apply in_seq in K. rewrite !setBlock_other; [reflexivity|nia|nia].
Qed.

Lemma joinRows_at M s k j : (k < order)%nat -> (ns + s * order + k)%nat <> (np - 1)%nat ->
  joinRows order border m dist kpar M s (ns + s * order + k)%nat j =
  if andb (Nat.leb (s * k0 + k0) j) (Nat.ltb j (s * k0 + k0 + k0)) then - drow k0 0 k (j - (s * k0 + k0))%nat
  else if andb (Nat.leb (s * k0) j) (Nat.ltb j (s * k0 + k0)) then drow k0 (dist s) k (j - s * k0)%nat
  else M (ns + s * order + k)%nat j.
Proof.
  intros K H. unfold joinRows. fold k0 np ns.
  match goal with |- fold_left ?F _ ?M0 ?r _ = _ => destruct (fold_once F order k M0 r K) as (M' & E1 & E2) end.
  - intros a M' j' A N. rewrite !setBlock_other; [reflexivity|lia|lia].
  - rewrite E2. rewrite !setBlock_same. rewrite E1.
    destruct (Nat.ltb (s * k0) np); [rewrite (setBlock_other k0 M (np - 1)) by exact H; reflexivity|reflexivity].
Qed.

Lemma joined_low r : (r < ns)%nat -> r <> (np - 1)%nat -> forall j, joined order border m dist kpar r j = blk k0 0 (drow k0 0 r) j.
Proof.
  intros H1 H2 j. unfold joined. rewrite fold_other.
  - rewrite startLast_row by exact H2. apply start_row. exact H1.
  - intros s M j' _. apply joinRows_other; [exact H2|]. left. lia.
Qed.

Lemma joined_at s k : (s < m - 1)%nat -> (k < order)%nat -> forall j,
  joined order border m dist kpar (ns + s * order + k)%nat j =
  blk k0 (s * k0) (drow k0 (dist s) k) j + blk k0 (s * k0 + k0) (fun i => - drow k0 0 k i) j.
Proof.
  intros S K j. pose proof ns_le. pose proof np_eq.
  assert (N : (ns + s * order + k)%nat <> (np - 1)%nat) by (unfold k0 in *; nia).
  unfold joined.
  destruct (fold_once (joinRows order border m dist kpar) (m - 1) s (startLast order border m kpar) (ns + s * order + k) S) as (M' & E1 & E2).
  - intros a M j' A NA. apply joinRows_other; [exact N|]. destruct (Nat.lt_ge_cases a s); [right|left]; nia.
  - rewrite E2, joinRows_at by assumption. rewrite E1, startLast_row by exact N. rewrite start_row_0 by lia. unfold blk.
    destruct (Nat.leb_spec (s * k0 + k0) j), (Nat.leb_spec (s * k0) j), (Nat.ltb_spec j (s * k0 + k0)), (Nat.ltb_spec j (s * k0 + k0 + k0)); cbn [andb]; try lia; ring.
Qed.

Lemma joined_high r : (nsofar order border m kpar <= r)%nat -> r <> (np - 1)%nat -> forall j, joined order border m dist kpar r j = 0.
Proof.
  intros H1 H2 j. unfold nsofar in H1. fold ns in H1. unfold joined. rewrite fold_other.
  - rewrite startLast_row by exact H2. apply start_row_0. lia.
  - intros s M j' S. apply in_seq in S. apply joinRows_other; [exact H2|]. right. nia.
Qed.

Lemma ended_low r : (r < nsofar order border m kpar)%nat -> forall j, ended order border m dist kpar r j = joined order border m dist kpar r j.
Proof.
  intros H j. unfold ended. apply fold_other. intros k M j' K. apply setBlock_other. lia.
Qed.

Lemma ended_high k : (nsofar order border m kpar + k < np - 1)%nat -> forall j,
  ended order border m dist kpar (nsofar order border m kpar + k)%nat j = blk k0 ((m - 1) * k0) (drow k0 (dist (m - 1)%nat) k) j.
Proof.
  intros H j. unfold ended. fold k0 np.
  match goal with |- fold_left ?F (seq 0 ?n) ?M0 ?r _ = _ => destruct (fold_once F n k M0 r) as (M' & E1 & E2) end.
  - lia.
  - intros a M j' A N. apply setBlock_other. lia.
  - rewrite E2, setBlock_same, E1. rewrite joined_high by lia. reflexivity.
Qed.

Lemma find_row r : r <> (np - 1)%nat -> forall j, findMatrix order border m dist kpar k_a k_b r j = ended order border m dist kpar r j.
Proof.
  intros H j. unfold findMatrix. fold k0 np. destruct (Nat.ltb 0 kpar); [|reflexivity].
  destruct (Nat.eqb m 1); apply setBlock_other; exact H.
Qed.

Context (b : nat -> R) (F : found order border m dist kpar k_a k_b b).

(** the piece over segment s *)
Definition piece (k0' : nat) (b' : nat -> R) (s i : nat) : R := b' (s * k0' + i)%nat.

Lemma found_row r : (r < np - 1)%nat -> sumn np (fun j => ended order border m dist kpar r j * b j) = 0.
Proof.
  intro H. unfold found in F. fold k0 np in F. destruct F as [[_ S]|[_ [_ S]]].
  - specialize (S r ltac:(lia)). cbn beta in S. destruct (Nat.eqb_spec r (np - 1)); [lia|]. rewrite <- S.
    apply sumn_ext. intros j J. rewrite find_row by lia. reflexivity.
  - specialize (S r ltac:(lia)). cbn beta in S. destruct (Nat.eqb_spec r (np - 1)); [lia|]. rewrite <- S.
    apply sumn_ext. intros j J. rewrite setBlock_other by lia. rewrite find_row by lia. reflexivity.
Qed.

Lemma so_far : (nsofar order border m kpar <= np - 1)%nat.
Proof. unfold nsofar. fold ns. pose proof ns_le. pose proof np_eq. unfold k0 in *. nia. Qed.

(** at the start *)
Lemma found_start q : (q < ns)%nat -> D k0 q (piece k0 b 0) 0 = 0.
Proof.
  intro H. pose proof ns_le as N. pose proof k0_le as K.
  assert (Q : (q < np - 1)%nat) by (unfold k0 in K; lia).
  pose proof (found_row q Q) as E.
  assert (NS : (q < nsofar order border m kpar)%nat) by (unfold nsofar; fold ns; apply (Nat.lt_le_trans _ ns); [exact H|apply Nat.le_add_r]).
  rewrite (sumn_ext np _ (fun j => blk k0 0 (drow k0 0 q) j * b j)) in E.
  2: { intros j J. rewrite ended_low by exact NS. rewrite joined_low by lia. reflexivity. }
  rewrite blk_dot in E by exact K. rewrite <- drow_dot. exact E.
Qed.

(** at a join *)
Lemma found_join s q : (s + 1 < m)%nat -> (q < order)%nat -> D k0 q (piece k0 b s) (dist s) = D k0 q (piece k0 b (s + 1)) 0.
Proof.
  intros S Q. pose proof ns_le. pose proof np_eq. pose proof so_far.
  assert (R1 : (ns + s * order + q < nsofar order border m kpar)%nat) by (unfold nsofar; fold ns; nia).
  pose proof (found_row (ns + s * order + q) ltac:(lia)) as E.
  rewrite (sumn_ext np _ (fun j => blk k0 (s * k0) (drow k0 (dist s) q) j * b j + blk k0 (s * k0 + k0) (fun i => - drow k0 0 q i) j * b j)) in E.
  2: { intros j J. rewrite ended_low by exact R1. rewrite joined_at by lia. ring. }
  rewrite sumn_plus in E. rewrite !blk_dot in E by (unfold np, k0; nia).
  rewrite <- !drow_dot. unfold piece.
  rewrite (sumn_ext k0 (fun i => - drow k0 0 q i * b (s * k0 + k0 + i)%nat) (fun i => (-1) * (drow k0 0 q i * b ((s + 1) * k0 + i)%nat))) in E.
  2: { intros i I. replace ((s + 1) * k0 + i)%nat with (s * k0 + k0 + i)%nat by lia. ring. }
  rewrite sumn_scal in E. lra.
Qed.

(** at the end *)
Lemma found_end q : (nsofar order border m kpar + q < np - 1)%nat -> D k0 q (piece k0 b (m - 1)) (dist (m - 1)%nat) = 0.
Proof.
  intro Q. pose proof (found_row _ Q) as E.
  rewrite (sumn_ext np _ (fun j => blk k0 ((m - 1) * k0) (drow k0 (dist (m - 1)%nat) q) j * b j)) in E.
  2: { intros j J. rewrite ended_high by exact Q. reflexivity. }
  rewrite blk_dot in E by (unfold np, k0; nia). rewrite <- drow_dot. exact E.
Qed.
End Find.
