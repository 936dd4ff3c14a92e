(** C94: pictures of fits and of samples. *)
From Coq Require Import Reals List Arith ZArith Bool Lia Lra Permutation.
From Verif Require Import M_Picture.
Import ListNotations.
Local Open Scope R_scope.

(** ** Points drawn for the samples *)
Definition rsum (l : list R) : R := fold_right Rplus 0 l.
Definition zsum (l : list Z) : Z := fold_right Z.add 0%Z l.

Lemma int_floor : forall s, 0 <= s -> (0 <= int s)%Z /\ IZR (int s) <= s < IZR (int s) + 1.
Proof.
  intros s H. unfold int. destruct (Rle_dec 0 s) as [_|n]; [|lra].
  destruct (base_Int_part s) as [A B]. split; [|lra].
  apply Z.lt_succ_r, lt_IZR. rewrite succ_IZR. lra.
Qed.
Lemma floor_unique : forall s k, IZR k <= s < IZR k + 1 -> 0 <= s -> int s = k.
Proof.
  intros s k H P. destruct (int_floor s P) as [_ F].
  assert (IZR (int s) < IZR (k + 1)) by (rewrite plus_IZR; lra).
  assert (IZR k < IZR (int s + 1)) by (rewrite plus_IZR; lra).
  apply lt_IZR in H0. apply lt_IZR in H1. lia.
Qed.

Lemma drawn_prefix : forall npt ws swgt k, 0 <= npt -> Forall (fun w => 0 <= w) ws -> 0 <= swgt -> swgt < 1 -> (k <= length ws)%nat ->
  zsum (firstn k (drawn npt swgt ws)) = int (swgt + npt * rsum (firstn k ws)).
Proof.
  intros npt ws. induction ws as [|w r IH]; intros swgt k N F S0 S1 K.
  - destruct k; [|cbn in K; lia]. cbn. rewrite Rmult_0_r, Rplus_0_r. symmetry. apply floor_unique; cbn; lra.
  - destruct k as [|k].
    { cbn. rewrite Rmult_0_r, Rplus_0_r. symmetry. apply floor_unique; cbn; lra. }
    inversion F as [|? ? Fw Fr]; subst.
    assert (P : 0 <= swgt + w * npt) by (assert (0 <= w * npt) by (apply Rmult_le_pos; lra); lra).
    destruct (int_floor _ P) as [I0 I1].
    cbn [drawn firstn]. cbn [zsum fold_right rsum].
    change (fold_right Z.add 0%Z) with zsum. change (fold_right Rplus 0) with rsum.
    rewrite IH; [|assumption|assumption|lra|lra|cbn in K; lia].
    assert (Q : 0 <= npt * rsum (firstn k r)).
    { apply Rmult_le_pos; [assumption|]. clear -Fr. revert k. induction Fr as [|x l A B IH]; intros [|k]; cbn; try lra.
      change (fold_right Rplus 0) with rsum. specialize (IH k). lra. }
    destruct (int_floor (swgt + w * npt - IZR (int (swgt + w * npt)) + npt * rsum (firstn k r))) as [_ J]; [lra|].
    symmetry. apply floor_unique; [|lra]. rewrite plus_IZR. lra.
Qed.
Lemma drawn_length : forall npt ws swgt, length (drawn npt swgt ws) = length ws.
Proof. induction ws as [|w r IH]; intros s; [reflexivity|]. cbn [drawn length]. f_equal. apply IH. Qed.

(** After k samples the number of points is the whole part of npt times their weight *)
Theorem C94_points_prefix : forall npt ws k, 0 <= npt -> Forall (fun w => 0 <= w) ws -> (k <= length ws)%nat ->
  let total := npt * rsum (firstn k ws) in
  let n := zsum (firstn k (drawn npt 0 ws)) in
  IZR n <= total < IZR n + 1.
Proof.
  intros npt ws k N F K total n. subst n. rewrite drawn_prefix; try lra; try assumption.
  rewrite Rplus_0_l. apply int_floor. unfold total. apply Rmult_le_pos; [assumption|].
  clear -F. revert k. induction F as [|x l A B IH]; intros [|k]; cbn; try lra.
  change (fold_right Rplus 0) with rsum. specialize (IH k). lra.
Qed.

(** When the weights add to 1, npt points are drawn *)
Theorem C94_points_total : forall npt ws, Forall (fun w => 0 <= w) ws -> rsum ws = 1 ->
  zsum (drawn (INR npt) 0 ws) = Z.of_nat npt.
Proof.
  intros npt ws F E.
  pose proof (drawn_prefix (INR npt) ws 0 (length ws) (pos_INR _) F ltac:(lra) ltac:(lra) (le_n _)) as H.
  rewrite <- (drawn_length (INR npt) ws 0) in H at 1. rewrite !firstn_all, E in H. rewrite H.
  apply floor_unique; [|pose proof (pos_INR npt); lra]. rewrite <- INR_IZR_INZ. lra.
Qed.

(** and each sample has its share, to within one point *)
Theorem C94_points_share : forall npt ws k, 0 <= npt -> Forall (fun w => 0 <= w) ws -> (k < length ws)%nat ->
  (0 <= nth k (drawn npt 0 ws) 0)%Z /\ Rabs (IZR (nth k (drawn npt 0 ws) 0%Z) - npt * nth k ws 0) < 1.
Proof.
  intros npt ws k N F K.
  assert (G : forall ws swgt k, Forall (fun w => 0 <= w) ws -> 0 <= swgt < 1 -> (k < length ws)%nat ->
     (0 <= nth k (drawn npt swgt ws) 0)%Z /\ Rabs (IZR (nth k (drawn npt swgt ws) 0%Z) - npt * nth k ws 0) < 1).
  { clear ws k F K. intros ws. induction ws as [|w r IH]; intros swgt k F S K; [cbn in K; lia|].
    inversion F as [|? ? Fw Fr]; subst.
    assert (P : 0 <= swgt + w * npt) by (assert (0 <= w * npt) by (apply Rmult_le_pos; lra); lra).
    destruct (int_floor _ P) as [I0 I1].
    destruct k as [|k]; cbn [drawn nth].
    - split; [assumption|]. apply Rabs_def1; lra.
    - apply IH; [assumption|lra|cbn in K; lia]. }
  apply G; [assumption|lra|assumption].
Qed.
Example C94_points_ex : drawn 10 0 [1 / 4; 1 / 2; 1 / 4] = [2; 5; 3]%Z.
Proof.
  cbn [drawn].
  assert (A : int (0 + 1 / 4 * 10) = 2%Z) by (apply floor_unique; lra). rewrite A.
  assert (B : int (0 + 1 / 4 * 10 - 2 + 1 / 2 * 10) = 5%Z) by (apply floor_unique; lra). rewrite B.
  assert (C : int (0 + 1 / 4 * 10 - 2 + 1 / 2 * 10 - 5 + 1 / 4 * 10) = 3%Z) by (apply floor_unique; lra). rewrite C.
  reflexivity.
Qed.

(** ** Limits *)
Lemma fold_min_le : forall l a x, In x (a :: l) -> fold_left Rmin l a <= x.
Proof.
  induction l as [|b l IH]; intros a x H; cbn.
  - destruct H as [->|[]]. lra.
  - destruct H as [->|[->|H]].
    + apply Rle_trans with (Rmin x b); [apply IH; now left|apply Rmin_l].
    + apply Rle_trans with (Rmin a x); [apply IH; now left|apply Rmin_r].
    + apply IH. now right.
Qed.
Lemma fold_max_le : forall l a x, In x (a :: l) -> x <= fold_left Rmax l a.
Proof.
  induction l as [|b l IH]; intros a x H; cbn.
  - destruct H as [->|[]]. lra.
  - destruct H as [->|[->|H]].
    + apply Rle_trans with (Rmax x b); [apply Rmax_l|apply IH; now left].
    + apply Rle_trans with (Rmax a x); [apply Rmax_r|apply IH; now left].
    + apply IH. now right.
Qed.
Lemma amin_le : forall a x, In x (items a) -> amin a <= x.
Proof. intros a x H. apply fold_min_le. exact H. Qed.
Lemma amax_le : forall a x, In x (items a) -> x <= amax a.
Proof. intros a x H. apply fold_max_le. exact H. Qed.
Lemma amin_amax : forall a, amin a <= amax a.
Proof. intros a. apply Rle_trans with (fst a); [apply amin_le|apply amax_le]; now left. Qed.

(** Without limits of the user all data and the whole fit are inside the picture *)
Theorem C94_limits : forall xdata ydata yfit,
  exists xlo xhi ylo yhi, limits None None xdata ydata yfit = Some ((xlo, xhi), (ylo, yhi)) /\
    (forall x, In x (items xdata) -> xlo <= x <= xhi) /\
    (forall y, In y (items ydata) \/ In y (items yfit) -> ylo <= y <= yhi).
Proof.
  intros xd yd yf. unfold limits, xrange. do 4 eexists. split; [reflexivity|].
  pose proof (amin_amax xd). pose proof (amin_amax yd). pose proof (amin_amax yf).
  pose proof (Rmin_l (amin yd) (amin yf)). pose proof (Rmin_r (amin yd) (amin yf)).
  pose proof (Rmax_l (amax yd) (amax yf)). pose proof (Rmax_r (amax yd) (amax yf)).
  split.
  - intros x I. pose proof (amin_le xd x I). pose proof (amax_le xd x I). lra.
  - intros y [I|I].
    + pose proof (amin_le yd y I). pose proof (amax_le yd y I). lra.
    + pose proof (amin_le yf y I). pose proof (amax_le yf y I). lra.
Qed.

(** The margins: 5 percent of the range at the left, at the right and below; above it is 5.25 percent, as the range has already grown *)
Theorem C94_margins : forall xdata ydata yfit xlo xhi ylo yhi,
  limits None None xdata ydata yfit = Some ((xlo, xhi), (ylo, yhi)) ->
  let low := Rmin (amin ydata) (amin yfit) in let high := Rmax (amax ydata) (amax yfit) in
  amin xdata - xlo = 5 / 100 * (amax xdata - amin xdata) /\ xhi - amax xdata = 5 / 100 * (amax xdata - amin xdata) /\
  low - ylo = 5 / 100 * (high - low) /\ yhi - high = 525 / 10000 * (high - low).
Proof. intros xd yd yf xlo xhi ylo yhi H low high. unfold limits, xrange in H. injection H as <- <- <- <-. fold low high. repeat split; lra. Qed.

(** xlim is obeyed; the points of the samples are inside it *)
Theorem C94_xlim : forall lo hi xdata ydata yfit, exists y, limits (Some (lo, hi)) None xdata ydata yfit = Some ((lo, hi), y).
Proof. intros. eexists. reflexivity. Qed.
Theorem C94_points_inside : forall xlim xdata u, (forall l, xlim = Some l -> fst l <= snd l) -> 0 <= u < 1 ->
  fst (xrange xlim xdata) <= xpoint (xrange xlim xdata) u <= snd (xrange xlim xdata).
Proof.
  intros xlim xd u H U. unfold xpoint.
  assert (L : fst (xrange xlim xd) <= snd (xrange xlim xd)).
  { destruct xlim as [l|]; cbn; [apply H; reflexivity|apply amin_amax]. }
  destruct (xrange xlim xd) as [lo hi]. cbn in *.
  assert (0 <= u * (hi - lo) <= 1 * (hi - lo)); [|lra].
  split; [apply Rmult_le_pos; lra|apply Rmult_le_compat_r; lra].
Qed.

(** plotSampleList with ylim never makes a picture: ylo and yhi have no value (UnboundLocalError) *)
Theorem C94_ylim_refuted : forall xlim ylim xdata ydata yfit, limits xlim (Some ylim) xdata ydata yfit = None.
Proof. intros xlim ylim xd yd yf. unfold limits. destruct (xrange xlim xd). reflexivity. Qed.
Example C94_limits_ex : limits None None (0, [2]) (1, [3]) (2, [4]) = Some ((0 - 5 / 100 * (2 - 0), 2 + 5 / 100 * (2 - 0)),
   (1 - 5 / 100 * (4 - 1), 4 + 5 / 100 * (4 - (1 - 5 / 100 * (4 - 1))))).
Proof.
  unfold limits, xrange, amin, amax. cbn [fst snd fold_left].
  rewrite (Rmin_left 0 2), (Rmax_right 0 2), (Rmin_left 1 3), (Rmin_left 2 4), (Rmin_left 1 2), (Rmax_right 1 3), (Rmax_right 2 4), (Rmax_right 3 4) by lra.
  reflexivity.
Qed.

(** ** plotFit *)
Lemma ilog_spec : forall f n, (n <= f)%nat -> (0 < n)%nat -> (10 ^ ilog f n <= n < 10 ^ S (ilog f n))%nat.
Proof.
  induction f as [|f IH]; intros n L P; [lia|]. cbn [ilog].
  destruct (Nat.ltb_spec n 10) as [H|H]; [cbn; lia|].
  assert (D : (1 <= n / 10)%nat) by (apply Nat.div_le_lower_bound; lia).
  assert (E : (n / 10 < n)%nat) by (apply Nat.div_lt; lia).
  destruct (IH (n / 10)%nat ltac:(lia) ltac:(lia)) as [A B].
  pose proof (Nat.div_mod n 10 ltac:(lia)) as M. pose proof (Nat.mod_upper_bound n 10 ltac:(lia)).
  rewrite Nat.pow_succ_r' in B. rewrite !Nat.pow_succ_r'. lia.
Qed.
(** The size of the markers: 5 below 10 points, one less for every factor of 10, and never less than 1 *)
Theorem C94_marker : forall n, (0 < n)%nat ->
  (1 <= markerSize n <= 5)%nat /\
  (forall d, (d < 4)%nat -> (10 ^ d <= n < 10 ^ S d)%nat -> markerSize n = (5 - d)%nat) /\
  ((10 ^ 4 <= n)%nat -> markerSize n = 1%nat).
Proof.
  intros n P. unfold markerSize, ilog10. destruct (ilog_spec n n (le_n _) P) as [A B].
  split; [destruct (Nat.ltb_spec (ilog n n) 4); lia|].
  assert (U : forall d, (10 ^ d <= n)%nat -> (d <= ilog n n)%nat).
  { intros d D. assert (10 ^ d < 10 ^ S (ilog n n))%nat as X by lia. apply Nat.pow_lt_mono_r_iff in X; lia. }
  split.
  - intros d D [D1 D2]. pose proof (U d D1).
    assert (10 ^ ilog n n < 10 ^ S d)%nat as X by lia. apply Nat.pow_lt_mono_r_iff in X; [|lia].
    replace (ilog n n) with d by lia. destruct (Nat.ltb_spec d 4); lia.
  - intros D. pose proof (U 4%nat D). destruct (Nat.ltb_spec (ilog n n) 4); lia.
Qed.
Example C94_marker_ex : markerSize 7 = 5%nat /\ markerSize 100 = 3%nat /\ markerSize 2000 = 2%nat.
Proof. repeat split; reflexivity. Qed.

(** The fine grid: from the lowest to the highest, evenly spaced *)
Theorem C94_grid : forall lo hi n, lo <= hi -> (2 <= n)%nat ->
  length (linspace lo hi n) = n /\ nth 0 (linspace lo hi n) 0 = lo /\ nth (n - 1) (linspace lo hi n) 0 = hi /\
  (forall k, (S k < n)%nat -> nth (S k) (linspace lo hi n) 0 - nth k (linspace lo hi n) 0 = (hi - lo) / INR (n - 1)) /\
  (forall x, In x (linspace lo hi n) -> lo <= x <= hi).
Proof.
  intros lo hi n L N.
  assert (P : 0 < INR (n - 1)) by (apply lt_0_INR; lia).
  assert (G : forall k, (k < n)%nat -> nth k (linspace lo hi n) 0 = lo + INR k * ((hi - lo) / INR (n - 1))).
  { intros k K. unfold linspace. set (f := fun k => lo + INR k * ((hi - lo) / INR (n - 1))).
    rewrite (nth_indep _ 0 (f 0%nat)) by (rewrite map_length, seq_length; exact K).
    rewrite map_nth, seq_nth by exact K. reflexivity. }
  split; [unfold linspace; now rewrite map_length, seq_length|].
  split; [rewrite G by lia; cbn [INR]; lra|].
  split; [rewrite G by lia; field; lra|].
  split.
  - intros k K. rewrite !G by lia. rewrite S_INR. lra.
  - intros x I. apply In_nth with (d := 0) in I. destruct I as [k [K <-]].
    unfold linspace in K. rewrite map_length, seq_length in K. rewrite G by exact K.
    assert (B : INR k <= INR (n - 1)) by (apply le_INR; lia). pose proof (pos_INR k) as B0.
    assert (0 <= (hi - lo) / INR (n - 1)) by (apply Rmult_le_pos; [lra|left; apply Rinv_0_lt_compat; exact P]).
    assert (0 <= INR k * ((hi - lo) / INR (n - 1)) <= INR (n - 1) * ((hi - lo) / INR (n - 1))).
    { split; [apply Rmult_le_pos; lra|apply Rmult_le_compat_r; lra]. }
    assert (INR (n - 1) * ((hi - lo) / INR (n - 1)) = hi - lo) by (field; lra). lra.
Qed.

(** A picture is made unless residuals are asked for without data, or without anything to compare them with *)
Theorem C94_fit_made : forall x data yfit model error show residuals filename,
  plotFit x data yfit model error show residuals filename <> None <->
  (residuals = true -> data <> None /\ (yfit <> None \/ model <> None)).
Proof.
  intros x data yfit model error show residuals filename. unfold plotFit.
  destruct residuals, data, yfit, model; cbn; split; intros H; try discriminate; try (intros; discriminate); try (now intros _; split; [discriminate|left]);
    try (now intros _; split; [discriminate|right]);
    try (exfalso; now apply H); try (exfalso; destruct (H eq_refl) as [A [B|B]]; congruence).
Qed.

(** It shows the data, the residuals are data minus fit, and the curve is the model on the fine grid *)
Theorem C94_fit_shown : forall x d yfit f error show residuals filename,
  exists its, plotFit x (Some d) yfit (Some f) error show residuals filename = Some its /\
    In (Points d (markerSize (length d))) its /\
    (let xx := linspace (amin x) (amax x) (10 * length (items x)) in
     In (Curve xx (f xx)) its /\
     forall e, error = Some e -> In (Edge xx (vsub (f xx) (e xx))) its /\ In (Edge xx (vadd (f xx) (e xx))) its) /\
    (residuals = true -> In (Residuals (vsub d (match yfit with Some y => y | None => f (items x) end)) (markerSize (length d))) its) /\
    (In Save its <-> filename = true) /\ (In Show its <-> filename = false /\ show = true).
Proof.
  intros x d yfit f error show residuals filename. unfold plotFit.
  set (xx := linspace (amin x) (amax x) (10 * length (items x))). clearbody xx.
  destruct residuals, yfit, error, filename, show; eexists; (split; [reflexivity|]); cbn;
    (split; [tauto|]); (split; [split; [tauto|intros ? [=<-]; tauto] || (split; [tauto|intros ? [=]])|]);
    (split; [try discriminate; tauto|]); split; split; intros H; try tauto; try discriminate;
    try (destruct H as [H1 H2]; discriminate);
    repeat (destruct H as [H|H]; try discriminate); try contradiction.
Qed.
(** Point by point: a residual is what is left of the data, and the band lies one error below and one error above the curve *)
Lemma nth_map2 : forall (g : R * R -> R) a b k, (k < length a)%nat -> (k < length b)%nat -> nth k (map g (combine a b)) 0 = g (nth k a 0, nth k b 0).
Proof.
  intros g a. induction a as [|u a IH]; intros b k A B; [cbn in A; lia|]. destruct b as [|v b]; [cbn in B; lia|].
  destruct k as [|k]; [reflexivity|]. cbn in A, B |- *. apply IH; lia.
Qed.
Theorem C94_residual_values : forall x d f error show filename its r size k,
  plotFit x (Some d) None (Some f) error show true filename = Some its -> In (Residuals r size) its ->
  (k < length d)%nat -> (k < length (f (items x)))%nat -> nth k d 0 = nth k (f (items x)) 0 + nth k r 0.
Proof.
  intros x d f error show filename its r size k H I A B. unfold plotFit in H. injection H as <-.
  assert (E : r = vsub d (f (items x))).
  { cbn [app In] in I. destruct I as [I|I]; [congruence|].
    destruct I as [I|I]; [discriminate|]. destruct error, filename, show; cbn in I; repeat (destruct I as [I|I]; [discriminate|]); destruct I. }
  rewrite E. unfold vsub. rewrite nth_map2 by assumption. cbn. lra.
Qed.
Theorem C94_band_values : forall x d yfit f e show residuals filename its k,
  plotFit x (Some d) yfit (Some f) (Some e) show residuals filename = Some its ->
  let xx := linspace (amin x) (amax x) (10 * length (items x)) in
  (k < length (f xx))%nat -> (k < length (e xx))%nat ->
  exists lo hi, In (Edge xx lo) its /\ In (Edge xx hi) its /\
    nth k lo 0 = nth k (f xx) 0 - nth k (e xx) 0 /\ nth k hi 0 = nth k (f xx) 0 + nth k (e xx) 0.
Proof.
  intros x d yfit f e show residuals filename its k H xx A B.
  destruct (C94_fit_shown x d yfit f (Some e) show residuals filename) as (its' & H' & _ & (_ & E) & _).
  rewrite H in H'. injection H' as <-. fold xx in E. destruct (E e eq_refl) as [E1 E2].
  exists (vsub (f xx) (e xx)), (vadd (f xx) (e xx)). split; [exact E1|]. split; [exact E2|].
  unfold vsub, vadd. rewrite !nth_map2 by assumption. split; reflexivity.
Qed.
(** Without a model the fit is drawn as it is *)
Theorem C94_fit_given : forall x data y error show residuals filename, (residuals = true -> data <> None) ->
  exists its, plotFit x data (Some y) None error show residuals filename = Some its /\ In (Curve (items x) y) its.
Proof.
  intros x data y error show residuals filename H. unfold plotFit.
  destruct residuals, data, filename, show; try (exfalso; now apply H); eexists; (split; [reflexivity|]); cbn; tauto.
Qed.
Example C94_fit_ex : exists its, plotFit (0, [1]) (Some [3; 4]) None (Some (map (fun x => x + 1))) None true true false = Some its /\
  nth 0 its Show = Residuals [3 - (0 + 1); 4 - (1 + 1)] 5.
Proof. eexists. split; reflexivity. Qed.

(** When both a fit and a model are given, the residuals are not those of the curve that is drawn *)
Theorem C94_fit_residual_refuted : ~ (forall x d yfit f its,
  plotFit x (Some d) yfit (Some f) None true true false = Some its -> In (Residuals (vsub d (f (items x))) (markerSize (length d))) its).
Proof.
  intros H. specialize (H (0, []) [1] (Some [1]) (fun _ => [0]) _ eq_refl). cbn in H.
  destruct H as [H|[H|[H|[H|[]]]]]; try discriminate. injection H as H. lra.
Qed.

(** ** The movie *)
Definition topW (l : list msmp) (a : R) : R := fold_left (fun m s => Rmax m (m_logW s)) l a.
(** sample i is worth showing: at least 1 percent of the best one until then *)
Definition worthy (l : list msmp) (a : R) (i : nat) : Prop :=
  topW (firstn (S i) l) a - ln 100 <= m_logW (nth i l (mkS 0 0 [])).
Lemma less_spec : forall a b, less a b = true <-> a < b.
Proof. intros. unfold less. destruct (Rlt_dec a b); split; intros; try assumption; try discriminate; try reflexivity. contradiction. Qed.
Lemma less_false : forall a b, less a b = false <-> b <= a.
Proof. intros. unfold less. destruct (Rlt_dec a b); split; intros; try discriminate; try reflexivity; lra. Qed.
Lemma top_step : forall a b, (if less a b then b else a) = Rmax a b.
Proof.
  intros. destruct (less a b) eqn:E.
  - apply less_spec in E. rewrite Rmax_right; lra.
  - apply less_false in E. rewrite Rmax_left; lra.
Qed.
Lemma frames_spec : forall samples k0 k1 pr todo i mx fs b,
  frames samples k0 k1 pr i mx todo = (fs, b) ->
  (length fs <= length todo)%nat /\
  (b = true <-> length fs = length todo) /\
  (forall j, (j < length fs)%nat -> worthy todo mx j /\
     nth_error fs j = Some (frameAt samples k0 k1
        (option_map (fun p => (fst p, map (fun y => y - 9) (snd p (nth j todo (mkS 0 0 []))))) pr) (i + j) (topW (firstn (S j) todo) mx))) /\
  ((length fs < length todo)%nat -> ~ worthy todo mx (length fs)).
Proof.
  intros samples k0 k1 pr todo. induction todo as [|s r IH]; intros i mx fs b H.
  - injection H as <- <-. cbn. repeat split; intros; try lia.
  - cbn [frames] in H. rewrite top_step in H.
    destruct (less (m_logW s) (Rmax mx (m_logW s) - ln 100)) eqn:E.
    + injection H as <- <-. apply less_spec in E. cbn [length].
      split; [lia|]. split; [split; intros; [discriminate|lia]|]. split; [intros; lia|].
      intros _. unfold worthy. cbn. lra.
    + destruct (frames samples k0 k1 pr (S i) (Rmax mx (m_logW s)) r) as [fs' b'] eqn:F.
      injection H as <- <-. apply less_false in E.
      destruct (IH _ _ _ _ F) as [A [B [C D]]]. cbn [length].
      split; [lia|]. split; [rewrite B; lia|]. split.
      * intros [|j] J.
        -- split; [unfold worthy; cbn; lra|]. cbn. now rewrite Nat.add_0_r.
        -- destruct (C j ltac:(lia)) as [C1 C2]. split; [exact C1|].
           cbn [nth_error]. rewrite C2. replace (i + S j)%nat with (S i + j)%nat by lia. reflexivity.
      * intros J. apply D. lia.
Qed.

(** The movie shows the samples one by one, up to the first one below 1 percent of the best before it *)
Theorem C94_movie_frames : forall s0 rest k0 k1 problem w,
  let samples := s0 :: rest in
  let fs := fst (movie samples k0 k1 problem w) in
  (length fs <= length samples)%nat /\
  (forall j, (j < length fs)%nat -> worthy samples (m_logW s0) j) /\
  ((length fs < length samples)%nat -> ~ worthy samples (m_logW s0) (length fs)).
Proof.
  intros s0 rest k0 k1 problem w samples fs. unfold fs, movie. subst samples. cbv iota.
  destruct (frames _ _ _ _ _ _ _) as [f b] eqn:E. cbn [fst].
  destruct (frames_spec _ _ _ _ _ _ _ _ _ E) as [A [_ [C D]]].
  split; [exact A|]. split; [intros j J; now apply C|exact D].
Qed.

Lemma filter_split : forall A (f : A -> bool) l, Permutation (filter f l ++ filter (fun x => negb (f x)) l) l.
Proof.
  induction l as [|a l IH]; [apply perm_nil|]. cbn. destruct (f a); cbn.
  - now apply perm_skip.
  - etransitivity; [symmetry; apply Permutation_middle|]. now apply perm_skip.
Qed.
(** In frame j: every earlier sample, in yellow when it is below 1 percent of the best and in black otherwise;
    and in red those of the others that were started by then *)
Theorem C94_movie_frame : forall s0 rest k0 k1 problem w j fr,
  let samples := s0 :: rest in
  let xy := fun s => (nth k0 (m_pars s) 0, nth k1 (m_pars s) 0) in
  let best := topW (firstn (S j) samples) (m_logW s0) in
  nth_error (fst (movie samples k0 k1 problem w)) j = Some fr ->
  Permutation (f_low fr ++ f_high fr) (map xy (firstn j samples)) /\
  (forall q, In q (f_low fr) <-> exists s, In s (firstn j samples) /\ q = xy s /\ m_logW s < best - ln 100) /\
  (forall q, In q (f_high fr) <-> exists s, In s (firstn j samples) /\ q = xy s /\ best - ln 100 <= m_logW s) /\
  (forall q, In q (f_live fr) <-> exists s, In s (skipn j samples) /\ q = xy s /\ (m_start s <= j)%nat).
Proof.
  intros s0 rest k0 k1 problem w j fr samples xy best H. unfold movie in H. subst samples. cbv iota in H.
  destruct (frames _ _ _ _ _ _ _) as [f b] eqn:E. cbn [fst] in H.
  destruct (frames_spec _ _ _ _ _ _ _ _ _ E) as [_ [_ [C _]]].
  assert (J : (j < length f)%nat) by (apply nth_error_Some; rewrite H; discriminate).
  destruct (C j J) as [_ C2]. rewrite H in C2. injection C2 as ->. cbn [plus] in *. unfold frameAt. fold best.
  set (done := firstn j (s0 :: rest)). cbn [f_low f_high f_live].
  split; [rewrite <- map_app; apply Permutation_map, filter_split|].
  assert (G : forall (p : msmp -> bool) (P : msmp -> Prop) l q, (forall s, p s = true <-> P s) ->
             (In q (map (M_Picture.xy k0 k1) (filter p l)) <-> exists s, In s l /\ q = xy s /\ P s)).
  { intros p P l q PP. rewrite in_map_iff. split.
    - intros [s [<- I]]. apply filter_In in I. destruct I as [I1 I2]. exists s. split; [exact I1|]. split; [reflexivity|]. now apply PP.
    - intros [s [I [-> Q]]]. exists s. split; [reflexivity|]. apply filter_In. split; [exact I|]. now apply PP. }
  split; [|split]; intros q; apply G; intros s.
  - apply less_spec.
  - rewrite negb_true_iff. apply less_false.
  - apply Nat.leb_le.
Qed.

(** The backend of the user comes back when all samples were shown, and only then *)
Theorem C94_movie_backend : forall samples k0 k1 problem w, w_backend w = true ->
  (w_backend (snd (movie samples k0 k1 problem w)) = true <->
   samples <> [] /\ length (fst (movie samples k0 k1 problem w)) = length samples).
Proof.
  intros [|s0 rest] k0 k1 problem w W; unfold movie; cbv iota.
  - cbn. split; [discriminate|intros [H _]; now elim H].
  - destruct (frames _ _ _ _ _ _ _) as [f b] eqn:E. destruct (frames_spec _ _ _ _ _ _ _ _ _ E) as [_ [B _]].
    cbn [fst snd w_backend]. rewrite <- B. rewrite W. destruct b; split; intros H; try discriminate; try reflexivity.
    + split; [discriminate|reflexivity].
    + destruct H; discriminate.
Qed.
(** It does not always come back: the loop is left by a return *)
Theorem C94_movie_backend_refuted : ~ (forall samples k0 k1 problem w, samples <> [] -> w_backend w = true ->
  w_backend (snd (movie samples k0 k1 problem w)) = true).
Proof.
  intros H. specialize (H [mkS 0 0 [0; 0]; mkS (- 100) 0 [0; 0]] 0%nat 1%nat None (mkW [] true) ltac:(discriminate) eq_refl).
  apply C94_movie_backend in H; [|reflexivity]. destruct H as [_ H].
  destruct (C94_movie_frames (mkS 0 0 [0; 0]) [mkS (- 100) 0 [0; 0]] 0 1 None (mkW [] true)) as [_ [F _]].
  cbv zeta in F. cbn [length] in H. rewrite H in F. specialize (F 1%nat ltac:(lia)). unfold worthy, topW in F. cbn in F.
  rewrite (Rmax_left 0 0), (Rmax_left 0 (-100)) in F by lra.
  assert (ln 100 < 100); [|lra].
  apply Rlt_le_trans with (100 - 1); [|lra]. 
  pose proof (exp_ineq1 (100 - 1) ltac:(lra)) as X.
  apply exp_lt_inv. rewrite exp_ln by lra. lra.
Qed.

(** Making a movie with the problem takes 9 off its data, every time *)
Theorem C94_movie_data : forall samples k0 k1 problem w,
  w_ydata (snd (movie samples k0 k1 problem w)) = match problem with None => w_ydata w | Some _ => map (fun y => y - 9) (w_ydata w) end.
Proof. intros [|s0 rest] k0 k1 problem w; unfold movie; [destruct problem; reflexivity|]. destruct (frames _ _ _ _ _ _ _). destruct problem; reflexivity. Qed.
Theorem C94_movie_data_refuted : ~ (forall samples k0 k1 problem w, w_ydata (snd (movie samples k0 k1 problem w)) = w_ydata w).
Proof.
  intros H. specialize (H [mkS 0 0 [0; 0]] 0%nat 1%nat (Some (fun _ => [])) (mkW [1] true)). rewrite C94_movie_data in H.
  cbn in H. injection H as H. lra.
Qed.
(** The first movie shows data and model both 9 lower, so their differences are right; those of a later one are not *)
Theorem C94_movie_first : forall s0 rest k0 k1 f w j fr,
  nth_error (fst (movie (s0 :: rest) k0 k1 (Some f) w)) j = Some fr ->
  f_data fr = Some (map (fun y => y - 9) (w_ydata w), map (fun y => y - 9) (f (nth j (s0 :: rest) (mkS 0 0 [])))).
Proof.
  intros s0 rest k0 k1 f w j fr H. unfold movie in H. cbv iota in H.
  destruct (frames _ _ _ _ _ _ _) as [g b] eqn:E. cbn [fst] in H.
  destruct (frames_spec _ _ _ _ _ _ _ _ _ E) as [_ [_ [C _]]].
  assert (J : (j < length g)%nat) by (apply nth_error_Some; rewrite H; discriminate).
  destruct (C j J) as [_ C2]. rewrite H in C2. injection C2 as ->. reflexivity.
Qed.
Theorem C94_movie_second_refuted : ~ (forall s0 k0 k1 f w fr,
  let w1 := snd (movie [s0] k0 k1 (Some f) w) in
  nth_error (fst (movie [s0] k0 k1 (Some f) w1)) 0 = Some fr ->
  forall d m, f_data fr = Some (d, m) -> nth 0 d 0 - nth 0 m 0 = nth 0 (w_ydata w) 0 - nth 0 (f s0) 0).
Proof.
  intros H. set (s := mkS 0 0 [0; 0]). specialize (H s 0%nat 1%nat (fun _ => [0]) (mkW [0] true)). cbv zeta in H.
  set (w1 := snd _) in H.
  assert (W : w_ydata w1 = [0 - 9]) by (unfold w1; rewrite C94_movie_data; reflexivity).
  destruct (nth_error (fst (movie [s] 0 1 (Some (fun _ : msmp => [0])) w1)) 0) as [fr|] eqn:E.
  - pose proof (C94_movie_first _ _ _ _ _ _ _ _ E) as D. specialize (H fr eq_refl _ _ D). rewrite W in H. cbn in H. lra.
  - apply nth_error_None in E.
    destruct (C94_movie_frames s [] 0 1 (Some (fun _ : msmp => [0])) w1) as [_ [_ F]]. cbv zeta in F.
    apply (F ltac:(cbn [length]; lia)).
    replace (length _) with 0%nat by lia. unfold worthy, topW. cbn. rewrite Rmax_left by lra.
    assert (0 <= ln 100); [|lra]. rewrite <- ln_1. left. apply ln_increasing; lra.
Qed.
Example C94_movie_ex : forall w, length (fst (movie [mkS 0 0 [1; 2]; mkS 1 3 [3; 4]] 0 1 None w)) = 2%nat.
Proof.
  intros w. assert (L : 0 <= ln 100) by (rewrite <- ln_1; left; apply ln_increasing; lra).
  destruct (C94_movie_frames (mkS 0 0 [1; 2]) [mkS 1 3 [3; 4]] 0 1 None w) as [A [_ D]]. cbv zeta in *. cbn [length] in *.
  set (n := length _) in *. clearbody n.
  destruct (Nat.eq_dec n 2) as [E|E]; [exact E|exfalso].
  apply D; [lia|]. unfold worthy, topW.
  destruct n as [|[|n]]; [| |lia]; cbn.
  - rewrite Rmax_left by lra. lra.
  - rewrite (Rmax_left 0 0), (Rmax_right 0 1) by lra. lra.
Qed.

Print Assumptions C94_points_total.
Print Assumptions C94_movie_frame.
