(** C81: averages over samples, plain and circular. *)
From Coquelicot Require Import Coquelicot.
From Coq Require Import List Arith ZArith Reals Lra Lia.
From Verif Require Import M_Kepler P_Stellar M_Average.
Import ListNotations.
Local Open Scope R_scope.

Lemma wsum_ext : forall f g l, (forall x, f x = g x) -> wsum f l = wsum g l.
Proof. induction l as [|[x w] l IH]; intro H; cbn [wsum]; [reflexivity|]. rewrite H, IH by exact H. reflexivity. Qed.
Lemma wsum_lin : forall a b f g l, wsum (fun x => a * f x + b * g x) l = a * wsum f l + b * wsum g l.
Proof. induction l as [|[x w] l IH]; cbn [wsum]; [ring|]. rewrite IH. ring. Qed.
Lemma wsum_pos : forall f l, (forall x w, In (x, w) l -> 0 <= w) -> (forall x, 0 <= f x) -> 0 <= wsum f l.
Proof.
  induction l as [|[x w] l IH]; intros W F; cbn [wsum]; [lra|].
  assert (0 <= w * f x) by (apply Rmult_le_pos; [apply (W x); left; reflexivity|apply F]).
  assert (0 <= wsum f l) by (apply IH; [intros y v I; apply (W y v); right; exact I|exact F]). lra.
Qed.

Lemma cosZ : forall x k, cos (x + 2 * PI * IZR k) = cos x.
Proof.
  intros x k. destruct (Z_le_gt_dec 0 k) as [K|K].
  - rewrite <- (Z2Nat.id k K), <- INR_IZR_INZ. replace (2 * PI * INR (Z.to_nat k)) with (2 * INR (Z.to_nat k) * PI) by ring. apply cos_period.
  - rewrite <- (cos_period (x + 2 * PI * IZR k) (Z.to_nat (- k))). f_equal.
    rewrite INR_IZR_INZ, Z2Nat.id by lia. rewrite opp_IZR. ring.
Qed.
Lemma sinZ : forall x k, sin (x + 2 * PI * IZR k) = sin x.
Proof.
  intros x k. rewrite !sin_cos. f_equal. replace (PI / 2 + (x + 2 * PI * IZR k)) with (PI / 2 + x + 2 * PI * IZR k) by ring. apply cosZ.
Qed.
Lemma cos1 : forall x, cos x = 1 -> exists k, x = 2 * PI * IZR k.
Proof.
  intros x E. replace x with (2 * (x / 2)) in E by field. rewrite cos_2a_sin in E.
  assert (sin (x / 2) = 0). { assert (Q : sin (x / 2) * sin (x / 2) = 0) by lra. apply Rmult_integral in Q. destruct Q; assumption. }
  destruct (sin_eq_0_0 _ H) as [k K]. exists k. replace x with (2 * (x / 2)) by field. rewrite K. ring.
Qed.
Lemma fmod_spec : forall a m, 0 < m -> 0 <= fmod a m < m /\ exists k, a = fmod a m + m * IZR k.
Proof.
  intros a m M. unfold fmod. pose proof (base_Int_part (a / m)) as [A B]. set (k := IZR (Int_part (a / m))) in *.
  assert (E : a = m * (a / m)) by (field; lra). split; [|exists (Int_part (a / m)); fold k; ring].
  split; rewrite E at 1; nra.
Qed.
Lemma fmod_unique : forall a b m k, 0 < m -> 0 <= b < m -> a = b + m * IZR k -> fmod a m = b.
Proof.
  intros a b m k M B E. destruct (fmod_spec a m M) as [F [j J]].
  assert (Q : fmod a m - b = m * IZR (k - j)) by (rewrite minus_IZR; lra).
  assert (k - j = 0)%Z.
  { assert (- 1 < IZR (k - j) < 1) by (split; nra). destruct H as [H1 H2]. apply lt_IZR in H2. change (- (1)) with (IZR (-1)) in H1. apply lt_IZR in H1. lia. }
  rewrite H in Q. lra.
Qed.

(** The plain average is the value nearest to all samples, in weighted squares, and the standard deviation is the root of what is left. *)
Theorem C81_plain : forall l, (forall x w, In (x, w) l -> 0 <= w) -> 0 < wsum (fun _ => 1) l ->
  let (a, s) := averagePlain l in
  (forall m, m <> a -> wsum (fun x => (x - a) ^ 2) l < wsum (fun x => (x - m) ^ 2) l) /\
  0 <= s /\ s ^ 2 * wsum (fun _ => 1) l = wsum (fun x => (x - a) ^ 2) l.
Proof.
  intros l W P. unfold averagePlain. set (a := wsum (fun x => x) l / wsum (fun _ => 1) l). cbv zeta.
  assert (EX : forall m, wsum (fun x => (x - m) ^ 2) l = wsum (fun x => x * x) l - 2 * m * wsum (fun x => x) l + m * m * wsum (fun _ => 1) l).
  { intro m. rewrite (wsum_ext _ (fun x => 1 * (x * x) + 1 * ((-2 * m) * x + (m * m) * 1))) by (intro; ring).
    rewrite (wsum_lin 1 1 (fun x => x * x) (fun x => (-2 * m) * x + (m * m) * 1)), (wsum_lin (-2 * m) (m * m) (fun x => x) (fun _ => 1)). ring. }
  assert (A : wsum (fun x => x) l = a * wsum (fun _ => 1) l) by (unfold a; field; lra).
  assert (N : 0 <= npAverage (fun x => (x - a) * (x - a)) l).
  { unfold npAverage. apply Rmult_le_pos; [|left; apply Rinv_0_lt_compat; exact P]. apply wsum_pos; [exact W|]. intro x. apply Rle_0_sqr. }
  split; [|split; [apply sqrt_pos|]].
  - intros m M. rewrite !EX, A. clearbody a. assert (0 < (m - a) * (m - a)) by (apply Rsqr_pos_lt; lra).
    assert (0 < (m - a) * (m - a) * wsum (fun _ => 1) l) by (apply Rmult_lt_0_compat; assumption). lra.
  - rewrite <- Rsqr_pow2, Rsqr_sqrt by exact N. unfold npAverage.
    rewrite (wsum_ext (fun x => (x - a) ^ 2) (fun x => (x - a) * (x - a))) by (intro; ring). field. lra.
Qed.

(** With normalized weights the averages of a sample list are those of Tools.average. *)
Theorem C81_list : forall f items, wsum (fun _ => 1) (map (fun s => (f s, s_wgt s)) items) = 1 ->
  (forall s, In s items -> 0 <= s_wgt s) ->
  averstd f items = averagePlain (map (fun s => (f s, s_wgt s)) items).
Proof.
  intros f items E W. unfold averstd, averagePlain, npAverage. set (l := map _ items) in *.
  assert (WL : forall x w, In (x, w) l -> 0 <= w).
  { intros x w I. unfold l in I. apply in_map_iff in I. destruct I as [s [I J]]. injection I as <- <-. apply W. exact J. }
  clearbody l. rewrite E, !Rdiv_1. set (a := wsum (fun x => x) l). cbv zeta. f_equal. f_equal.
  assert (Q : wsum (fun x => (x - a) * (x - a)) l = wsum (fun x => x * x) l - a * a).
  { rewrite (wsum_ext _ (fun x => 1 * (x * x) + 1 * ((-2 * a) * x + (a * a) * 1))) by (intro; ring).
    rewrite (wsum_lin 1 1 (fun x => x * x) (fun x => (-2 * a) * x + (a * a) * 1)), (wsum_lin (-2 * a) (a * a) (fun x => x) (fun _ => 1)), E.
    fold a. ring. }
  rewrite Q. apply Rmax_left. rewrite <- Q. apply wsum_pos; [exact WL|]. intro x. apply Rle_0_sqr.
Qed.

(** ** Circular averages *)

(** the angle of a value, the direction of the mean, and its residual *)
Definition ang (c0 c1 x : R) : R := (x - c0) * (2 * PI / (c1 - c0)).
Definition dir (c0 c1 : R) (l : list (R * R)) : R :=
  arctan2 (npAverage (fun x => sin (ang c0 c1 x)) l) (npAverage (fun x => cos (ang c0 c1 x)) l).
Definition resid (c0 c1 : R) (l : list (R * R)) (x : R) : R := fmod (ang c0 c1 x - dir c0 c1 l + PI) (2 * PI) - PI.

Lemma circ_core : forall n c0 c1 l, c0 < c1 -> exists a k,
  averageCircular (S n) c0 c1 l = Some (a, sqrt (npAverage (fun x => resid c0 c1 l x * resid c0 c1 l x) l) / (2 * PI / (c1 - c0))) /\
  c0 <= a <= c1 /\ ang c0 c1 a = dir c0 c1 l + 2 * PI * IZR k.
Proof.
  intros n c0 c1 l C. pose proof PI_RGT_0 as HP.
  assert (R0 : - PI < dir c0 c1 l <= PI) by apply atan2_range.
  unfold averageCircular. cbv zeta.
  change (arctan2 (npAverage (fun x => sin ((x - c0) * (2 * PI / (c1 - c0)))) l) (npAverage (fun x => cos ((x - c0) * (2 * PI / (c1 - c0)))) l))
    with (dir c0 c1 l).
  change (npAverage (fun x => (fmod ((x - c0) * (2 * PI / (c1 - c0)) - dir c0 c1 l + PI) (2 * PI) - PI) *
                              (fmod ((x - c0) * (2 * PI / (c1 - c0)) - dir c0 c1 l + PI) (2 * PI) - PI)) l)
    with (npAverage (fun x => resid c0 c1 l x * resid c0 c1 l x) l).
  generalize (sqrt (npAverage (fun x => resid c0 c1 l x * resid c0 c1 l x) l) / (2 * PI / (c1 - c0))). intro s.
  set (A := dir c0 c1 l) in *. clearbody A.
  assert (E : A / (2 * PI / (c1 - c0)) = (c1 - c0) * (A / (2 * PI))) by (field; split; lra).
  assert (B : - (1 / 2) < A / (2 * PI) <= 1 / 2).
  { split; [apply Rlt_div_r; lra|apply Rle_div_l; lra]. }
  set (u := A / (2 * PI)) in *. assert (AU : A = 2 * PI * u) by (unfold u; field; lra). clearbody u.
  rewrite E. cbn [upTo]. destruct (Rlt_dec ((c1 - c0) * u + c0) c0) as [L|L].
  - assert (u < 0) by nra.
    assert (U2 : upTo n c0 (c1 - c0) ((c1 - c0) * u + c0 + (c1 - c0)) = Some ((c1 - c0) * u + c0 + (c1 - c0))).
    { destruct n; cbn [upTo]; destruct (Rlt_dec _ c0) as [Q|Q]; try reflexivity; exfalso; nra. }
    rewrite U2. cbn [downTo]. destruct (Rlt_dec c1 _) as [Q|Q]; [exfalso; nra|].
    exists ((c1 - c0) * u + c0 + (c1 - c0)), 1%Z. split; [reflexivity|]. split; [nra|]. unfold ang. rewrite AU. field. lra.
  - assert (0 <= u) by nra. cbn [downTo]. destruct (Rlt_dec c1 _) as [Q|Q]; [exfalso; nra|].
    exists ((c1 - c0) * u + c0), 0%Z. split; [reflexivity|]. split; [nra|]. unfold ang. rewrite AU. field. lra.
Qed.

(** how well the samples agree with m *)
Lemma agree : forall c0 c1 l m, 0 < wsum (fun _ => 1) l ->
  let S := npAverage (fun x => sin (ang c0 c1 x)) l in let C := npAverage (fun x => cos (ang c0 c1 x)) l in
  wsum (fun x => cos (ang c0 c1 x - m)) l = wsum (fun _ => 1) l * sqrt (C * C + S * S) * cos (dir c0 c1 l - m).
Proof.
  intros c0 c1 l m P S C. destruct (atan2_polar S C) as [X Y]. fold C S in X, Y.
  change (arctan2 S C) with (dir c0 c1 l) in X, Y. rewrite cos_minus.
  rewrite (wsum_ext _ (fun x => cos m * cos (ang c0 c1 x) + sin m * sin (ang c0 c1 x))) by (intro; rewrite cos_minus; ring).
  rewrite (wsum_lin (cos m) (sin m) (fun x => cos (ang c0 c1 x)) (fun x => sin (ang c0 c1 x))).
  assert (X' : wsum (fun x => cos (ang c0 c1 x)) l = wsum (fun _ => 1) l * C) by (unfold C, npAverage; field; lra).
  assert (Y' : wsum (fun x => sin (ang c0 c1 x)) l = wsum (fun _ => 1) l * S) by (unfold S, npAverage; field; lra).
  rewrite X', Y'. set (r := sqrt (C * C + S * S)) in *. set (A := dir c0 c1 l) in *. set (W := wsum (fun _ => 1) l) in *.
  replace (W * r * (cos A * cos m + sin A * sin m)) with (W * (r * cos A) * cos m + W * (r * sin A) * sin m) by ring.
  rewrite X, Y. ring.
Qed.

(** The agreement of the samples with a value m: 1 for each sample at m, -1 for one half a turn away. *)
Definition fits (c0 c1 : R) (l : list (R * R)) (m : R) : R := wsum (fun x => cos (2 * PI * (x - m) / (c1 - c0))) l.

Lemma fits_agree : forall c0 c1 l m, c0 < c1 -> fits c0 c1 l m = wsum (fun x => cos (ang c0 c1 x - ang c0 c1 m)) l.
Proof. intros c0 c1 l m C. unfold fits. apply wsum_ext. intro x. f_equal. unfold ang. field. lra. Qed.

(** The circular average is inside the limits, so the loops that put it there end, and no value agrees better with the samples. *)
Theorem C81_circular : forall n c0 c1 l, c0 < c1 -> 0 < wsum (fun _ => 1) l -> exists a s,
  averageCircular (S n) c0 c1 l = Some (a, s) /\ c0 <= a <= c1 /\ forall m, fits c0 c1 l m <= fits c0 c1 l a.
Proof.
  intros n c0 c1 l C P. destruct (circ_core n c0 c1 l C) as [a [k [E [B K]]]]. eexists a, _. split; [exact E|]. split; [exact B|].
  intro m. rewrite !fits_agree by exact C. rewrite !agree by exact P. rewrite K.
  set (r := sqrt _). assert (0 <= r) by apply sqrt_pos.
  replace (dir c0 c1 l - (dir c0 c1 l + 2 * PI * IZR k)) with (0 + 2 * PI * IZR (- k)) by (rewrite opp_IZR; ring).
  rewrite cosZ, cos_0. apply Rmult_le_compat_l; [apply Rmult_le_pos; lra|]. apply COS_bound.
Qed.

(** There is no other value that agrees as well, except whole periods away, unless the samples have no direction at all. *)
Theorem C81_circular_unique : forall n c0 c1 l a s m, c0 < c1 -> 0 < wsum (fun _ => 1) l ->
  averageCircular (S n) c0 c1 l = Some (a, s) -> fits c0 c1 l a <> 0 -> fits c0 c1 l m = fits c0 c1 l a ->
  exists k, m = a + (c1 - c0) * IZR k.
Proof.
  intros n c0 c1 l a s m C P E N F. destruct (circ_core n c0 c1 l C) as [a' [k [E' [_ K]]]]. rewrite E' in E. injection E as -> _.
  rewrite !(fits_agree c0 c1 l _ C) in N. rewrite (fits_agree c0 c1 l m C), (fits_agree c0 c1 l a C) in F.
  rewrite (agree c0 c1 l (ang c0 c1 a) P), K in N. rewrite (agree c0 c1 l (ang c0 c1 a) P), (agree c0 c1 l (ang c0 c1 m) P), K in F.
  replace (dir c0 c1 l - (dir c0 c1 l + 2 * PI * IZR k)) with (0 + 2 * PI * IZR (- k)) in N, F by (rewrite opp_IZR; ring).
  rewrite cosZ, cos_0 in N, F. apply Rmult_eq_reg_l in F; [|intro Z; apply N; rewrite Z; ring].
  destruct (cos1 _ F) as [j J]. exists (- j - k)%Z. rewrite minus_IZR, opp_IZR. pose proof PI_RGT_0.
  assert (D : ang c0 c1 m - ang c0 c1 a = 2 * PI * (- IZR j - IZR k)) by lra.
  replace (ang c0 c1 m - ang c0 c1 a) with (2 * PI * ((m - a) / (c1 - c0))) in D by (unfold ang; field; lra).
  apply Rmult_eq_reg_l in D; [|lra]. rewrite <- D. field. lra.
Qed.

(** The standard deviation is taken of the distances to the average, each at most half a period. *)
Theorem C81_circular_stdev : forall n c0 c1 l a s, c0 < c1 -> averageCircular (S n) c0 c1 l = Some (a, s) ->
  exists d : R -> R, s = sqrt (wsum (fun x => d x ^ 2) l / wsum (fun _ => 1) l) /\
  forall x, - ((c1 - c0) / 2) <= d x < (c1 - c0) / 2 /\ exists k, x = a + d x + (c1 - c0) * IZR k.
Proof.
  intros n c0 c1 l a s C E. destruct (circ_core n c0 c1 l C) as [a' [k [E' [_ K]]]]. rewrite E' in E. injection E as -> <-.
  pose proof PI_RGT_0 as HP. set (q := (c1 - c0) / (2 * PI)).
  assert (Q : 0 < q) by (apply Rdiv_lt_0_compat; lra). assert (QE : c1 - c0 = q * (2 * PI)) by (unfold q; field; lra).
  exists (fun x => q * resid c0 c1 l x). split.
  - replace (2 * PI / (c1 - c0)) with (/ q) by (unfold q; field; lra). unfold Rdiv at 1. rewrite Rinv_inv, Rmult_comm.
    rewrite <- (sqrt_Rsqr q) at 1 by lra. rewrite <- sqrt_mult_alt by apply Rle_0_sqr. f_equal. unfold npAverage, Rsqr.
    rewrite (wsum_ext (fun x => (q * resid c0 c1 l x) ^ 2) (fun x => (q * q) * (resid c0 c1 l x * resid c0 c1 l x) + 0 * 1)) by (intro; ring).
    rewrite (wsum_lin (q * q) 0 (fun x => resid c0 c1 l x * resid c0 c1 l x) (fun _ => 1)). unfold Rdiv. ring.
  - intro x. destruct (fmod_spec (ang c0 c1 x - dir c0 c1 l + PI) (2 * PI)) as [F [j J]]; [lra|].
    unfold resid. set (f := fmod _ _) in *. clearbody f. split; [rewrite QE; split; nra|].
    exists (j - k)%Z. rewrite minus_IZR.
    assert (X : forall y, y = c0 + q * ang c0 c1 y) by (intro y; unfold ang, q; field; lra).
    rewrite (X x), (X a). replace (ang c0 c1 x) with (f + 2 * PI * IZR j + dir c0 c1 l - PI) by lra. rewrite K, QE. ring.
Qed.

Lemma wsum_periods : forall (f : R -> R) p l l', (forall x k, f (x + p * IZR k) = f x) ->
  Forall2 (fun u v => snd v = snd u /\ exists k, fst v = fst u + p * IZR k) l l' -> wsum f l' = wsum f l.
Proof.
  intros f p l l' F H. induction H as [|[x w] [y v] l l' [A [k B]] H IH]; [reflexivity|]. cbn [fst snd] in A, B. subst.
  cbn [wsum]. rewrite F, IH. reflexivity.
Qed.
Lemma resid_same : forall c0 c1 l l' x y j, c0 < c1 -> ang c0 c1 y - dir c0 c1 l' = ang c0 c1 x - dir c0 c1 l + 2 * PI * IZR j ->
  resid c0 c1 l' y = resid c0 c1 l x.
Proof.
  intros c0 c1 l l' x y j C E. pose proof PI_RGT_0. unfold resid. f_equal.
  destruct (fmod_spec (ang c0 c1 x - dir c0 c1 l + PI) (2 * PI)) as [F [i I]]; [lra|].
  apply (fmod_unique _ _ _ (i + j)%Z); [lra|exact F|]. rewrite plus_IZR. lra.
Qed.

(** Samples that are whole periods away count the same. *)
Theorem C81_circular_periods : forall n c0 c1 l l', c0 < c1 ->
  Forall2 (fun u v => snd v = snd u /\ exists k, fst v = fst u + (c1 - c0) * IZR k) l l' ->
  averageCircular (S n) c0 c1 l' = averageCircular (S n) c0 c1 l.
Proof.
  intros n c0 c1 l l' C H. pose proof (fun f F => wsum_periods f _ l l' F H) as S.
  assert (AN : forall x k, ang c0 c1 (x + (c1 - c0) * IZR k) = ang c0 c1 x + 2 * PI * IZR k) by (intros; unfold ang; field; lra).
  assert (D : dir c0 c1 l' = dir c0 c1 l).
  { unfold dir, npAverage. rewrite (S (fun _ => 1)) by reflexivity.
    rewrite (S (fun x => sin (ang c0 c1 x))) by (intros; rewrite AN; apply sinZ).
    rewrite (S (fun x => cos (ang c0 c1 x))) by (intros; rewrite AN; apply cosZ). reflexivity. }
  unfold averageCircular. cbv zeta.
  change (arctan2 (npAverage (fun x => sin ((x - c0) * (2 * PI / (c1 - c0)))) l) (npAverage (fun x => cos ((x - c0) * (2 * PI / (c1 - c0)))) l))
    with (dir c0 c1 l).
  change (arctan2 (npAverage (fun x => sin ((x - c0) * (2 * PI / (c1 - c0)))) l') (npAverage (fun x => cos ((x - c0) * (2 * PI / (c1 - c0)))) l'))
    with (dir c0 c1 l'). rewrite D.
  change (fun x : R => (fmod ((x - c0) * (2 * PI / (c1 - c0)) - dir c0 c1 l + PI) (2 * PI) - PI) *
                              (fmod ((x - c0) * (2 * PI / (c1 - c0)) - dir c0 c1 l + PI) (2 * PI) - PI))
    with (fun x => resid c0 c1 l x * resid c0 c1 l x).
  replace (npAverage (fun x => resid c0 c1 l x * resid c0 c1 l x) l') with (npAverage (fun x => resid c0 c1 l x * resid c0 c1 l x) l); [reflexivity|].
  unfold npAverage. rewrite (S (fun _ => 1)) by reflexivity. f_equal. symmetry. apply S.
  intros x k. rewrite (resid_same c0 c1 l l x _ k C) by (rewrite AN; ring). reflexivity.
Qed.

Lemma wsum_shift : forall f t l, wsum f (map (fun u => (fst u + t, snd u)) l) = wsum (fun x => f (x + t)) l.
Proof. induction l as [|[x w] l IH]; cbn [map wsum fst snd]; [reflexivity|]. rewrite IH. reflexivity. Qed.

(** When all samples are moved the average moves with them, and the standard deviation stays. *)
Theorem C81_circular_turn : forall n c0 c1 l t a s, c0 < c1 -> 0 < wsum (fun _ => 1) l ->
  averageCircular (S n) c0 c1 l = Some (a, s) -> fits c0 c1 l a <> 0 ->
  exists a' k, averageCircular (S n) c0 c1 (map (fun u => (fst u + t, snd u)) l) = Some (a', s) /\ a' = a + t + (c1 - c0) * IZR k.
Proof.
  intros n c0 c1 l t a s C P E N. pose proof PI_RGT_0 as HP.
  destruct (circ_core n c0 c1 l C) as [a1 [k [E' [_ K]]]]. rewrite E' in E. injection E as -> <-.
  set (l' := map _ l). destruct (circ_core n c0 c1 l' C) as [a' [k' [E2 [_ K']]]].
  set (td := t * (2 * PI / (c1 - c0))).
  assert (AN : forall x, ang c0 c1 (x + t) = ang c0 c1 x + td) by (intro; unfold ang, td; ring).
  assert (W : wsum (fun _ => 1) l' = wsum (fun _ => 1) l) by (unfold l'; rewrite wsum_shift; reflexivity).
  assert (G : forall m, wsum (fun x => cos (ang c0 c1 x - m)) l' = wsum (fun x => cos (ang c0 c1 x - (m - td))) l).
  { intro m. unfold l'. rewrite wsum_shift. apply wsum_ext. intro x. rewrite AN. f_equal. ring. }
  rewrite fits_agree in N by exact C. rewrite agree in N by exact P.
  pose proof (G (dir c0 c1 l')) as G1. pose proof (G (dir c0 c1 l + td)) as G2.
  rewrite !agree, W in G1, G2 by (try rewrite W; exact P).
  set (r := sqrt (npAverage (fun x => cos (ang c0 c1 x)) l * _ + _)) in *.
  set (r' := sqrt (npAverage (fun x => cos (ang c0 c1 x)) l' * _ + _)) in *.
  assert (R0 : 0 <= r) by apply sqrt_pos. assert (R1 : 0 <= r') by apply sqrt_pos.
  set (w := wsum (fun _ => 1) l) in *. assert (RN : r <> 0) by (intro Z; apply N; rewrite Z; ring).
  replace (dir c0 c1 l' - dir c0 c1 l') with 0 in G1 by ring. replace (dir c0 c1 l - (dir c0 c1 l + td - td)) with 0 in G2 by ring.
  rewrite cos_0 in G1, G2.
  replace (dir c0 c1 l - (dir c0 c1 l' - td)) with (- (dir c0 c1 l' - (dir c0 c1 l + td))) in G1 by ring. rewrite cos_neg in G1.
  destruct (cos1 (dir c0 c1 l' - (dir c0 c1 l + td))) as [j J].
  { clearbody r r' w. clear N. set (c := cos _) in *. clearbody c.
    assert (WN : w <> 0) by (apply Rgt_not_eq; exact P). assert (RP : 0 < r) by (destruct R0 as [R0|R0]; [exact R0|exfalso; apply RN; symmetry; exact R0]).
    assert (H1 : r' = r * c) by (apply (Rmult_eq_reg_l w); [lra|exact WN]).
    assert (H2 : r' * c = r) by (apply (Rmult_eq_reg_l w); [lra|exact WN]).
    assert (H3 : c * c = 1) by (apply (Rmult_eq_reg_l r); [rewrite H1 in H2; lra|exact RN]).
    destruct (Rle_lt_dec 0 c) as [H4|H4]; [nra|exfalso; nra]. }
  exists a', (j + k' - k)%Z. split.
  - rewrite E2. f_equal. f_equal. f_equal. f_equal. unfold npAverage. rewrite W. f_equal. etransitivity; [exact (wsum_shift _ t l)|]. apply wsum_ext. intro x. cbv beta.
    rewrite (resid_same c0 c1 l l' x (x + t) (- j)%Z C); [reflexivity|]. rewrite AN, opp_IZR. lra.
  - set (q := (c1 - c0) / (2 * PI)). assert (QE : c1 - c0 = q * (2 * PI)) by (unfold q; field; lra).
    assert (X : forall y, y = c0 + q * ang c0 c1 y) by (intro y; unfold ang, q; field; lra).
    assert (T : t = q * td) by (unfold td, q; field; lra). rewrite (X a'), (X a), T, K, K', QE, !minus_IZR, !plus_IZR.
    replace (dir c0 c1 l') with (dir c0 c1 l + td + 2 * PI * IZR j) by lra. ring.
Qed.

(** One sample, whatever its period: the average is that sample, brought inside the limits, and there is no deviation. *)
Theorem C81_circular_single : forall n c0 c1 x w, c0 < c1 -> 0 < w -> exists a k,
  averageCircular (S n) c0 c1 [(x, w)] = Some (a, 0) /\ c0 <= a <= c1 /\ x = a + (c1 - c0) * IZR k.
Proof.
  intros n c0 c1 x w C W. assert (P : 0 < wsum (fun _ => 1) [(x, w)]) by (cbn [wsum]; lra).
  destruct (C81_circular n c0 c1 [(x, w)] C P) as [a [s [E [B M]]]].
  assert (F1 : fits c0 c1 [(x, w)] x = w).
  { unfold fits. cbn [wsum]. replace (2 * PI * (x - x) / (c1 - c0)) with 0 by (field; lra). rewrite cos_0. ring. }
  assert (F2 : fits c0 c1 [(x, w)] a = w).
  { apply Rle_antisym; [|specialize (M x); rewrite F1 in M; exact M]. unfold fits. cbn [wsum]. pose proof (COS_bound (2 * PI * (x - a) / (c1 - c0))). nra. }
  destruct (C81_circular_unique n c0 c1 _ a s x C P E) as [k K]; [rewrite F2; lra|rewrite F1, F2; reflexivity|].
  exists a, k. split; [|split; [exact B|exact K]]. rewrite E. f_equal. f_equal.
  destruct (C81_circular_stdev n c0 c1 _ a s C E) as [d [-> D]]. destruct (D x) as [Dx [j J]].
  assert (Z : d x = 0).
  { assert (Q : d x = (c1 - c0) * IZR (k - j)) by (rewrite minus_IZR; lra).
    assert (k - j = 0)%Z.
    { assert (- 1 < IZR (k - j) < 1) as [H1 H2] by (split; nra). apply lt_IZR in H2. change (- (1)) with (IZR (-1)) in H1. apply lt_IZR in H1. lia. }
    rewrite H in Q. lra. }
  cbn [wsum]. rewrite Z. replace ((w * 0 ^ 2 + 0) / (w * 1 + 0)) with 0 by (field; lra). apply sqrt_0.
Qed.

(** ** What the list answers *)

(** A list that has not been asked before gives the averages and deviations of its samples, the deviation of the scale after its average. *)
Theorem C81_asked_once : forall items d, let l := newList items in
  fst (ask None (S d) Parameters l) = Value (fst (averstd s_par items)) /\
  fst (ask None (S (S d)) Stdevs l) = Value (snd (averstd s_par items)) /\
  fst (ask None (S (S d)) Scale l) = Value (fst (averstd s_hyp items)) /\
  fst (ask None (S (S d)) StdevScale (snd (ask None (S (S d)) Scale l))) = Value (snd (averstd s_hyp items)).
Proof. intros items d l. repeat split; reflexivity. Qed.

(** With a circular prior the parameters and deviations are those of the circular average. *)
Theorem C81_asked_circular : forall items c0 c1 d, c0 < c1 -> 0 < wsum (fun _ => 1) (map (fun s => (s_par s, s_wgt s)) items) ->
  exists a s, averageCircular 2 c0 c1 (map (fun s => (s_par s, s_wgt s)) items) = Some (a, s) /\
  fst (ask (Some (c0, c1)) (S d) Parameters (newList items)) = Value a /\ fst (ask (Some (c0, c1)) (S (S d)) Stdevs (newList items)) = Value s.
Proof.
  intros items c0 c1 d C P. destruct (C81_circular 1 c0 c1 _ C P) as [a [s [E _]]]. exists a, s. split; [exact E|].
  cbn [ask newList l_parameters l_stdevs]. unfold getParameters. cbn [l_items newList]. rewrite E. split; reflexivity.
Qed.

(** SampleList.stdevHypar asks for itself, after getHypars has set stdevHypars: it never answers. *)
Theorem C81_stdevHypar_refuted : forall circular depth l, fst (ask circular depth StdevHypar l) = RecursionError.
Proof.
  intros circular depth. induction depth as [|d IH]; intro l; [reflexivity|]. cbn [ask]. destruct (getHypars l) as [a l']. apply IH.
Qed.

(** SampleList.stdevScale, and stdevScale and stdevHypars of NestedSampler, give an AttributeError when the hyper parameters have not been
    asked for before. *)
Theorem C81_stdevScale_refuted : forall circular items d, fst (ask circular (S (S d)) StdevScale (newList items)) = AttributeError.
Proof. reflexivity. Qed.

(** The standard deviations are kept when a sample is added, while the (non circular) parameters are calculated again. *)
Theorem C81_stale_refuted : exists items s, let l := addSample s (snd (ask None 2 Stdevs (newList items))) in
  fst (ask None 2 Parameters l) = Value (fst (averstd s_par (l_items l))) /\ fst (ask None 2 Stdevs l) <> Value (snd (averstd s_par (l_items l))).
Proof.
  exists [mkS 0 0 (1 / 2)], (mkS 1 0 (1 / 2)). cbv zeta. split; [reflexivity|].
  cbn [ask newList l_stdevs getParameters averstd l_items snd fst addSample l_parameters map app wsum s_par s_wgt]. intro H. injection H as H.
  replace (1 / 2 * (0 * 0) + 0 - (1 / 2 * 0 + 0) * (1 / 2 * 0 + 0)) with 0 in H by ring. rewrite (Rmax_left 0 0), sqrt_0 in H by lra.
  symmetry in H. apply sqrt_eq_0 in H; [|apply Rmax_r].
  pose proof (Rmax_l (1 / 2 * (0 * 0) + (1 / 2 * (1 * 1) + 0) - (1 / 2 * 0 + (1 / 2 * 1 + 0)) * (1 / 2 * 0 + (1 / 2 * 1 + 0))) 0). lra.
Qed.

(** 350 and 10 degrees: plain and circular premises are met; the average is not 180. *)
Example C81_example : let l := [(350, 1); (10, 1)] in
  0 < wsum (fun _ => 1) l /\ (forall x w, In (x, w) l -> 0 <= w) /\ fst (averagePlain l) = 180 /\ fits 0 360 l 180 < 0 < fits 0 360 l 0 /\
  (forall a s, averageCircular 1 0 360 l = Some (a, s) -> fits 0 360 l a <> 0).
Proof.
  intro l. pose proof PI_RGT_0 as HP.
  assert (C0 : 0 < cos (PI / 18)) by (apply cos_gt_0; lra).
  assert (P : 0 < wsum (fun _ => 1) l) by (cbn; lra).
  assert (F0 : fits 0 360 l 0 = 2 * cos (PI / 18)).
  { unfold fits, l. cbn [wsum]. replace (2 * PI * (350 - 0) / (360 - 0)) with (- (PI / 18) + 2 * PI * IZR 1) by lra. rewrite cosZ, cos_neg.
    replace (2 * PI * (10 - 0) / (360 - 0)) with (PI / 18) by field. ring. }
  split; [exact P|]. split; [cbn; intros x w [H|[H|[]]]; injection H; intros; lra|]. split; [cbn; field|]. split; [split|].
  - unfold fits, l. cbn [wsum]. replace (2 * PI * (350 - 180) / (360 - 0)) with (- (PI / 18) + PI) by field.
    replace (2 * PI * (10 - 180) / (360 - 0)) with (PI / 18 - PI) by field. rewrite neg_cos, cos_neg.
    rewrite cos_minus, cos_PI, sin_PI. lra.
  - rewrite F0. lra.
  - intros a s E. destruct (C81_circular 0 0 360 l) as [a' [s' [E' [_ M]]]]; [lra|exact P|]. rewrite E' in E. injection E as -> _.
    specialize (M 0). rewrite F0 in M. lra.
Qed.

Print Assumptions C81_plain.
Print Assumptions C81_circular_turn.
