(** Proofs about GalileanEngine, in real numbers. *)
From Coq Require Import List Arith Reals Bool Lia Lra Psatz.
From Verif Require Import L_List M_Galilean.
Import ListNotations.
Local Open Scope R_scope.

Definition box (l : list R) : Prop := Forall (fun u => 0 <= u <= 1) l.
Definition nrm2 (v : list R) : R := dot numR v v.

Lemma quad_spec L0 Lm L1 low : L1 < low -> low <= L0 ->
  let b := 4 * Lm - L1 - 3 * L0 in
  let a := 2 * L0 - 4 * Lm + 2 * L1 in
  let f := quadinterpol numR L0 Lm L1 low in
  0 <= f < 1 /\ L0 + b * f + a * (f * f) = low.
Proof.
  intros H1 H0 b a f. unfold f, quadinterpol. cbn [numR n_of n_add n_mul n_div n_neg n_sqrt n_lt n_eq].
  change (4 * Lm + - L1 + - (3 * L0)) with b. change (2 * L0 + - (4 * Lm) + 2 * L1) with a.
  assert (Eab : a + b = L1 - L0) by (unfold a, b; ring). clear f. clearbody a b.
  destruct (Req_EM_T a 0) as [Za|Na].
  - destruct (Req_EM_T b 0) as [Zb|Nb]; [lra|].
    assert (B : b = L1 - L0) by lra. unfold Rdiv. rewrite B, Za.
    assert (Hd : L1 - L0 < 0) by lra.
    split.
    + replace ((low + - L0) * / (L1 - L0)) with ((L0 - low) * / (L0 - L1)) by (field; split; lra).
      assert (0 < / (L0 - L1)) by (apply Rinv_0_lt_compat; lra). split; [apply Rmult_le_pos; lra|].
      apply Rmult_lt_reg_r with (L0 - L1); [lra|]. rewrite Rmult_assoc, Rinv_l by lra. lra.
    + field. lra.
  - set (det := b * b + - (4 * a * (L0 + - low))).
    assert (D : 0 <= det).
    { unfold det. destruct (Rtotal_order a 0) as [Ha|[Ha|Ha]]; [|lra|].
      - assert (a * (L0 - low) <= 0) by nra. nra.
      - assert (det = (2 * a + b) * (2 * a + b) + 4 * a * (low - L1)) as E by (unfold det; replace L1 with (L0 + a + b) by lra; ring).
        unfold det in E. rewrite E. pose proof (Rle_0_sqr (2 * a + b)) as SQ. unfold Rsqr in SQ.
        assert (0 <= a * (low - L1)) by (apply Rmult_le_pos; lra). lra. }
    destruct (Rlt_dec det 0) as [|_]; [lra|]. set (s := sqrt det).
    assert (S2 : s * s = det) by (apply sqrt_sqrt; exact D). assert (S0 : 0 <= s) by apply sqrt_pos.
    set (x1 := (- b + - s) / (2 * a)). set (x2 := (- b + s) / (2 * a)).
    assert (Q : forall t, L0 + b * t + a * (t * t) - low = a * (t - x1) * (t - x2)).
    { intro t. assert (E : a * (t - x1) * (t - x2) = a * (t * t) + b * t + (b * b - s * s) / (4 * a)) by (unfold x1, x2; field; exact Na).
      rewrite E, S2. unfold det. field. exact Na. }
    pose proof (Q 0) as Q0. pose proof (Q 1) as Q1. pose proof (Q x1) as R1. pose proof (Q x2) as R2.
    assert (P0 : 0 <= a * (x1 * x2)) by nra. assert (P1 : a * ((1 - x1) * (1 - x2)) < 0) by nra.
    assert (E1 : L0 + b * x1 + a * (x1 * x1) = low) by nra. assert (E2 : L0 + b * x2 + a * (x2 * x2) = low) by nra.
    assert (DX : a * (x2 - x1) = s) by (unfold x1, x2; field; exact Na).
    destruct (Rlt_dec a 0) as [Ha|Ha].
    + assert (x1 * x2 <= 0) by nra. assert (0 < (1 - x1) * (1 - x2)) by nra. assert (x2 <= x1) by nra.
      destruct (Rlt_dec x2 x1) as [Hx|Hx]; split; try assumption; nra.
    + assert (0 < a) by lra. assert (0 <= x1 * x2) by nra. assert ((1 - x1) * (1 - x2) < 0) by nra. assert (x1 <= x2) by nra.
      destruct (Rlt_dec x1 x2) as [Hx|Hx]; split; try assumption; nra.
Qed.

Lemma reflect_box f u v : 0 <= fst (reflect numR f u v) <= 1 <-> -2 <= u + v * f <= 2.
Proof.
  unfold reflect. cbn [numR n_of n_add n_mul n_neg n_lt n_eq].
  destruct (Rlt_dec (u + v * f) 0), (Req_EM_T (u + v * f) 0); cbn [orb];
    match goal with |- context [Rlt_dec 1 ?y] => destruct (Rlt_dec 1 y), (Req_EM_T 1 y) end; cbn [orb fst]; lra.
Qed.

Lemma reflect_abs f u v : snd (reflect numR f u v) = v \/ snd (reflect numR f u v) = - v.
Proof.
  unfold reflect. cbn [numR n_of n_add n_mul n_neg n_lt n_eq]. destruct (_ || _); destruct (_ || _); cbn [snd]; auto. left. ring.
Qed.

Lemma copysign_abs a b : copysign numR a b = a \/ copysign numR a b = - a.
Proof.
  unfold copysign. cbn [numR n_of n_neg n_lt]. destruct (Rlt_dec a 0), (Rlt_dec b 0); auto. left. ring.
Qed.

Lemma dot_cons a b x y : dot numR (x :: a) (y :: b) = x * y + dot numR a b.
Proof. reflexivity. Qed.

Lemma dot_comm : forall a b, dot numR a b = dot numR b a.
Proof. induction a as [|x a IH]; intros [|y b]; try reflexivity. rewrite !dot_cons, IH. ring. Qed.

Lemma nrm2_cons x v : nrm2 (x :: v) = x * x + nrm2 v.
Proof. reflexivity. Qed.

Lemma nrm2_pos v : 0 <= nrm2 v.
Proof. induction v as [|x v IH]; [unfold nrm2; cbn; lra|]. rewrite nrm2_cons. nra. Qed.

Lemma nrm2_comp v x : In x v -> x * x <= nrm2 v.
Proof.
  induction v as [|y v IH]; [intros []|]. intros [->|H]; rewrite nrm2_cons; [pose proof (nrm2_pos v); lra|specialize (IH H); nra].
Qed.

Lemma mirror_form d v : length d = length v -> dot numR d d <> 0 ->
  mirrorOnLowL numR d v = map (fun dv => snd dv - (2 * dot numR d v / dot numR d d) * fst dv) (combine d v).
Proof.
  intros _ H. unfold mirrorOnLowL. cbn [numR n_of n_eq]. destruct (Req_EM_T (dot numR d d) 0) as [E|E]; [contradiction|].
  apply map_ext. intros [x y]. cbn [fst snd n_add n_neg n_mul n_div numR]. field. exact E.
Qed.

Lemma lin_dot k : forall d v, length d = length v ->
  dot numR d (map (fun dv => snd dv - k * fst dv) (combine d v)) = dot numR d v - k * dot numR d d /\
  nrm2 (map (fun dv => snd dv - k * fst dv) (combine d v)) = nrm2 v - 2 * k * dot numR d v + k * k * dot numR d d.
Proof.
  induction d as [|x d IH]; intros [|y v] H; try discriminate.
  - unfold nrm2. cbn. lra.
  - injection H as H. destruct (IH v H) as [A B]. cbn [combine map fst snd]. rewrite !dot_cons, !nrm2_cons, A, B. split; ring.
Qed.

Lemma mirror_length d v : length d = length v -> length (mirrorOnLowL numR d v) = length v.
Proof. intro H. unfold mirrorOnLowL. destruct (n_eq _ _ _); [reflexivity|]. rewrite map_length, combine_length. lia. Qed.

Lemma dot_zero d : dot numR d d = 0 -> forall v, dot numR d v = 0.
Proof.
  induction d as [|x d IH]; intros H [|y v]; try reflexivity. rewrite dot_cons in *. pose proof (nrm2_pos d) as P. unfold nrm2 in P.
  assert (x * x = 0 /\ dot numR d d = 0) as [A B] by nra. assert (x = 0) by nra. rewrite (IH B). subst x. ring.
Qed.

Lemma mirror_spec d v : length d = length v ->
  nrm2 (mirrorOnLowL numR d v) = nrm2 v /\ dot numR d (mirrorOnLowL numR d v) = - dot numR d v.
Proof.
  intro H. destruct (Req_EM_T (dot numR d d) 0) as [E|E].
  - unfold mirrorOnLowL. cbn [numR n_of n_eq]. destruct (Req_EM_T (dot numR d d) 0) as [E'|]; [|contradiction].
    rewrite (dot_zero d E v). split; [reflexivity|lra].
  - rewrite (mirror_form d v H E). destruct (lin_dot (2 * dot numR d v / dot numR d d) d v H) as [A B]. rewrite A, B.
    split; field; exact E.
Qed.

(** velocities *)
Definition small (n : nat) (v : list R) : Prop := length v = n /\ nrm2 v <= INR n / 16.

Lemma nrm2_bound m v : 0 <= m -> Forall (fun x => - m <= x <= m) v -> nrm2 v <= INR (length v) * (m * m).
Proof.
  intros M. induction 1 as [|x v H _ IH]; [unfold nrm2; cbn; lra|]. rewrite nrm2_cons. change (length (x :: v)) with (S (length v)). rewrite S_INR. nra.
Qed.

Lemma velocity_comp upran size u : 0 <= upran <= 1 -> 0 <= size <= 1 / 2 -> Forall (fun x => 0 <= x <= 1) u ->
  Forall (fun x => - (size / 2) <= x <= size / 2) (getVelocity numR upran size u).
Proof.
  intros U S. induction 1 as [|x u H _ IH]; [constructor|]. constructor; [|exact IH]. cbn [numR n_of n_mul n_add n_neg].
  set (y := x + - (1 / 2)). assert (Y : - (1 / 2) <= y <= 1 / 2) by (unfold y; lra). clearbody y.
  assert (- (1 / 2) <= y * upran <= 1 / 2) by nra. set (z := y * upran) in *. nra.
Qed.

Lemma velocity_small n upran size u : 0 <= upran <= 1 -> 0 <= size <= 1 / 2 -> length u = n -> Forall (fun x => 0 <= x <= 1) u ->
  small n (getVelocity numR upran size u).
Proof.
  intros U S L H. split; [unfold getVelocity; rewrite map_length; exact L|].
  pose proof (velocity_comp upran size u U S H) as C. apply nrm2_bound in C; [|lra]. unfold getVelocity in C at 2. rewrite map_length, L in C.
  assert (Q : size / 2 * (size / 2) <= 1 / 16) by nra. apply (Rmult_le_compat_l (INR n)) in Q; [lra|apply pos_INR].
Qed.

Lemma small_comp n v x : (n <= 16)%nat -> small n v -> In x v -> -1 <= x <= 1.
Proof.
  intros N [_ B] I. apply nrm2_comp in I. assert (INR n <= 16) by (replace 16 with (INR 16) by (cbn; lra); apply le_INR; exact N). nra.
Qed.

Lemma abs_nrm2 : forall a b, Forall2 (fun x y => x = y \/ x = - y) a b -> nrm2 a = nrm2 b.
Proof. induction 1 as [|x y a b H _ IH]; [reflexivity|]. rewrite !nrm2_cons, IH. destruct H as [->| ->]; ring. Qed.

Lemma trial_spec n par vel f w : (n <= 16)%nat -> length par = n -> box par -> small n vel -> small n w -> 0 <= f <= 1 ->
  let '(p, v, _) := trialStep numR par vel f w in length p = n /\ box p /\ small n v.
Proof.
  intros N Lp Bp Sv Sw Ff. unfold trialStep.
  set (r := map (fun uv => reflect numR f (fst uv) (snd uv)) (combine par vel)).
  assert (Lr : length r = n) by (unfold r; rewrite map_length, combine_length, Lp, (proj1 Sv); lia).
  assert (B : box (map fst r)).
  { unfold r. rewrite map_map. apply Forall_forall. intros y Hy. apply in_map_iff in Hy. destruct Hy as ([u v] & <- & Hy). cbn [fst snd].
    pose proof (in_combine_l _ _ _ _ Hy) as Hu. pose proof (in_combine_r _ _ _ _ Hy) as Hv.
    pose proof (proj1 (Forall_forall _ _) Bp u Hu) as Hu'. cbn beta in Hu'. pose proof (small_comp n vel v N Sv Hv) as Hv'.
    apply reflect_box. nra. }
  assert (V : small n (map snd r)).
  { split; [rewrite map_length; exact Lr|]. rewrite (abs_nrm2 (map snd r) vel); [apply Sv|].
    unfold r. clear - Lp Sv. destruct Sv as [Lv _]. revert vel n Lp Lv. induction par as [|u par IH]; intros [|v vel] n Lp Lv; cbn in *; try lia; [constructor|].
    constructor; [apply reflect_abs|]. apply (IH vel (n - 1)%nat); lia. }
  destruct (forallb _ _); [split; [rewrite map_length; exact Lr|split; assumption]|].
  split; [rewrite map_length; exact Lr|]. split; [exact B|]. destruct Sw as [Lw Bw], V as [LV _].
  split; [rewrite map_length, combine_length, LV, Lw; lia|].
  rewrite (abs_nrm2 _ w); [exact Bw|]. clear - LV Lw. generalize dependent (map snd r). clear r. intros l LV. revert l n LV Lw.
  induction w as [|y w IH]; intros [|x l] n LV Lw; cbn in *; try lia; [constructor|]. constructor; [apply copysign_abs|]. apply (IH l (n - 1)%nat); lia.
Qed.

Lemma reverse_small n v p : small n v -> length p = n -> Forall (fun x => - (1 / 40) <= x <= 1 / 40) p -> small n (reverseVelocity numR v p).
Proof.
  intros [Lv Bv] Lp Hp. unfold reverseVelocity. split; [rewrite map_length, combine_length; lia|].
  assert (G : nrm2 (map (fun vp => fst vp * (1 / 10 + - 1) + snd vp) (combine v p)) <= 9 / 10 * nrm2 v + 10 * nrm2 p).
  { clear. revert p. induction v as [|x v IH]; intros [|y p]; cbn [combine map fst snd]; rewrite ?nrm2_cons.
    - unfold nrm2. cbn. lra.
    - change (nrm2 []) with 0. pose proof (nrm2_pos p). nra.
    - change (nrm2 []) with 0. pose proof (nrm2_pos v). nra.
    - specialize (IH p). pose proof (Rle_0_sqr (3 / 10 * x + 3 * y)) as SQ. unfold Rsqr in SQ. lra. }
  apply nrm2_bound in Hp; [|lra]. rewrite Lp in Hp. eapply Rle_trans; [exact G|]. lra.
Qed.
