(** C97: the shapes of Kernel2dModel: construction, setKernelShape, copy, angle and units. *)
From Coquelicot Require Import Coquelicot.
From Coq Require Import Ascii String Reals List Arith ZArith Bool Lia Lra Permutation.
From Verif Require Import M_Kernel M_Units M_Shape2d T_Units.
Import ListNotations.
Local Open Scope nat_scope.

(** The first letter of the name decides; all other names, and all other numbers, are circular *)
Theorem C97_parse_name : forall c r, parseShape (SStr (String c r)) =
  Some (if (Ascii.eqb c "e" || Ascii.eqb c "E")%char then 2 else if (Ascii.eqb c "r" || Ascii.eqb c "R")%char then 3 else 1).
Proof.
  intros c r. unfold parseShape. cbn [findc].
  destruct (Ascii.eqb_spec c "x") as [->|]; [reflexivity|]. destruct (Ascii.eqb_spec c "c") as [->|]; [reflexivity|].
  destruct (Ascii.eqb_spec c "C") as [->|]; [reflexivity|]. destruct (Ascii.eqb_spec c "e") as [->|]; [reflexivity|].
  destruct (Ascii.eqb_spec c "E") as [->|]; [reflexivity|]. destruct (Ascii.eqb_spec c "r") as [->|]; [reflexivity|].
  destruct (Ascii.eqb_spec c "R") as [->|]; [reflexivity|]. reflexivity.
Qed.
Theorem C97_parse_number : forall z, parseShape (SInt z) = Some (if (z =? 2)%Z then 2 else if (z =? 3)%Z then 3 else 1).
Proof.
  intros z. unfold parseShape. destruct (Z.eqb_spec z 2) as [->|]; [reflexivity|]. destruct (Z.eqb_spec z 3) as [->|]; [reflexivity|].
  destruct (Z.eq_dec z 1) as [->|]; [reflexivity|]. destruct (Z.leb_spec 1 z), (Z.leb_spec z 3); try reflexivity. lia.
Qed.
Theorem C97_parse_none : forall a, parseShape a = None <-> a = SStr EmptyString.
Proof.
  intros [z|[|c r]]; split; intros H; try discriminate H; reflexivity.
Qed.
Lemma parse_range : forall a s, parseShape a = Some s -> s = 1 \/ s = 2 \/ s = 3.
Proof.
  intros [z|[|c r]] s H.
  - rewrite C97_parse_number in H. injection H as <-. destruct (z =? 2)%Z, (z =? 3)%Z; auto.
  - discriminate H.
  - rewrite C97_parse_name in H. injection H as <-. destruct (_ || _); auto. destruct (_ || _); auto.
Qed.

(** The same text in the name of the model and as argument *)
Theorem C97_name_back : forall a s, parseShape a = Some s -> parseShape (SStr (shapeName s)) = Some s /\ parseShape (SInt (Z.of_nat s)) = Some s.
Proof. intros a s H. destruct (parse_range a s H) as [->|[->| ->]]; split; reflexivity. Qed.

Lemma free_length : forall n fixed, NoDup fixed -> (forall k, In k fixed -> k < n) -> length (freeOf n fixed) = n - length fixed.
Proof.
  intros n fixed N H. unfold freeOf. set (f := fun k => existsb (Nat.eqb k) fixed).
  assert (G : forall l, length (filter f l) + length (filter (fun k => negb (f k)) l) = length l).
  { induction l as [|k l IH]; [reflexivity|]. cbn [filter]. destruct (f k); cbn [negb length]; lia. }
  assert (P : Permutation (filter f (seq 0 n)) fixed).
  { apply NoDup_Permutation; [apply NoDup_filter, seq_NoDup|exact N|]. intros k. rewrite filter_In. unfold f. rewrite existsb_exists. split.
    - intros (_ & j & Hj & E). apply Nat.eqb_eq in E. subst. exact Hj.
    - intros Hk. split; [apply in_seq; specialize (H k Hk); lia|]. exists k. split; [exact Hk|apply Nat.eqb_refl]. }
  apply Permutation_length in P. specialize (G (seq 0 n)). rewrite seq_length in G. change (length (filter (fun k => negb (f k)) (seq 0 n)) = n - length fixed). lia.
Qed.
Lemma free_lt : forall n fixed k, In k (freeOf n fixed) -> k < n.
Proof. intros n fixed k H. unfold freeOf in H. apply filter_In in H. destruct H as [H _]. apply in_seq in H. lia. Qed.
Lemma select_some : forall (A : Type) (d : A) l pl, (forall k, In k pl -> k < length l) -> select (Some pl) l = Some (map (fun k => nth k l d) pl).
Proof.
  intros A d l pl. cbn [select]. induction pl as [|k pl IH]; intros H; [reflexivity|]. cbn [fold_right map].
  rewrite IH by (intros; apply H; right; assumption). rewrite (nth_error_nth' l d) by (apply H; left; reflexivity). reflexivity.
Qed.
Lemma map_nth_all : forall (A : Type) (d : A) l, map (fun k => nth k l d) (seq 0 (length l)) = l.
Proof.
  intros A d l. induction l as [|x l IH]; [reflexivity|]. cbn [length seq map nth]. f_equal. rewrite <- seq_shift, map_map. exact IH.
Qed.
Lemma len_pars : forall K s, s = 1 \/ s = 2 \/ s = 3 -> length (startPars K s) = NPAR s /\ length (names s) = NPAR s.
Proof. intros K s [->|[->| ->]]; split; reflexivity. Qed.

Ltac kd := cbn [kd_npchain kd_parlist kd_nfixed kd_kernel kd_shape kd_npbase kd_parameters kd_posIndex kd_nonZero kd_parNames kd_shape2d].
(** What the documentation says of a model: the numbers of the shape without those of the fixed parameters *)
Definition built (m : k2d) (K : kernel) (s : nat) (fixed : list nat) : Prop :=
  kd_kernel m = K /\ kd_shape m = s /\ kd_npbase m = NPAR s - length fixed /\ kd_npchain m = NPAR s - length fixed
  /\ kd_parameters m = map (fun k => nth k (startPars K s) 0%R) (freeOf (NPAR s) fixed)
  /\ kd_parNames m = map (fun k => nth k (names s) ""%string) (freeOf (NPAR s) fixed)
  /\ kd_shape2d m = shapeOf K s /\ kd_posIndex m = positive s /\ kd_nonZero m = positive s
  /\ kd_nfixed m = length fixed /\ kd_parlist m = match fixed with [] => None | _ => Some (freeOf (NPAR s) fixed) end.

Lemma select_free : forall (A : Type) (d : A) l n fixed, length l = n ->
  select (match fixed with [] => None | _ => Some (freeOf n fixed) end) l = Some (map (fun k => nth k l d) (freeOf n fixed)).
Proof.
  intros A d l n fixed E. destruct fixed as [|k fixed].
  - cbn [select]. assert (F : freeOf n [] = seq 0 n).
    { unfold freeOf. cbn [existsb negb]. clear. generalize 0 as a. induction n as [|n IH]; intros a; [reflexivity|]. cbn [seq filter]. f_equal. apply IH. }
    rewrite F, <- E, map_nth_all. reflexivity.
  - apply select_some. intros j Hj. rewrite E. eapply free_lt. exact Hj.
Qed.
Theorem C97_set : forall m a s K0 K fixed, built m K0 s fixed -> NoDup fixed -> (forall k, In k fixed -> k < NPAR s) -> parseShape a = Some s ->
  exists m', setKernelShape m K a = (Done, m') /\ built m' K s fixed.
Proof.
  intros m a s K0 K fixed B N H P. destruct B as (_ & _ & _ & Bc & _ & _ & _ & _ & _ & Bn & Bp).
  destruct (len_pars K s (parse_range a s P)) as [L1 L2].
  unfold setKernelShape. rewrite P, Bp, (select_free R 0%R _ _ fixed L1), Bc, map_length, free_length, Nat.eqb_refl by assumption. cbn [negb].
  rewrite (select_free string ""%string _ _ fixed L2). eexists. split; [reflexivity|]. unfold built. kd. rewrite Bn. repeat split; reflexivity.
Qed.
Theorem C97_new : forall K a s fixed, parseShape a = Some s -> NoDup fixed -> (forall k, In k fixed -> k < NPAR s) ->
  exists m, newKernel2d K a fixed = (Done, Some m) /\ built m K s fixed /\ length (kd_parameters m) = kd_npchain m
            /\ length (kd_parNames m) = kd_npbase m.
Proof.
  intros K a s fixed P N H. unfold newKernel2d. rewrite P.
  destruct (C97_name_back a s P) as [_ P'].
  destruct (len_pars K s (parse_range a s P)) as [L1 L2].
  unfold setKernelShape. rewrite P'. cbn [kd_parlist kd_npchain kd_nfixed]. rewrite (select_free R 0%R _ _ fixed L1), map_length, free_length, Nat.eqb_refl by assumption.
  cbn [negb]. rewrite (select_free string ""%string _ _ fixed L2). eexists. split; [reflexivity|]. unfold built. kd. rewrite !map_length, free_length by assumption.
  repeat split; reflexivity.
Qed.
(** The example in the documentation of the class, a circular model that is set to another shape, ends in a ValueError, as the number of
    parameters in the chain stays the same.  It leaves a model that says it has the new kernel, the new shape and the new number of
    parameters, but has the old parameters, names and results. *)
Theorem C97_reshape_refuted : forall m a s s' K0 K, built m K0 s [] -> (s = 1 \/ s = 2 \/ s = 3) -> parseShape a = Some s' -> s' <> s ->
  exists m', setKernelShape m K a = (ValueError, m') /\ kd_shape m' = s' /\ kd_kernel m' = K /\ kd_npbase m' = NPAR s' /\ kd_npbase m' <> length (kd_parameters m')
    /\ kd_parameters m' = kd_parameters m /\ kd_parNames m' = kd_parNames m /\ (forall x y p, result2d m' x y p = result2d m x y p).
Proof.
  intros m a s s' K0 K B R P N. destruct B as (_ & _ & _ & Bc & Bq & _ & _ & _ & _ & Bn & Bp).
  destruct (len_pars K s' (parse_range a s' P)) as [L1 _]. destruct (len_pars K0 s R) as [L2 _].
  assert (Q : NPAR s' <> NPAR s).
  { destruct (parse_range a s' P) as [->|[->| ->]], R as [->|[->| ->]]; try discriminate; exfalso; apply N; reflexivity. }
  unfold setKernelShape. rewrite P, Bp. cbn [select]. rewrite L1, Bc. cbn [length]. rewrite Nat.sub_0_r. apply Nat.eqb_neq in Q. rewrite Q. cbn [negb].
  apply Nat.eqb_neq in Q. eexists. split; [reflexivity|]. kd. rewrite Bn. cbn [length]. rewrite Nat.sub_0_r. repeat split.
  rewrite Bq, map_length, free_length by (try constructor; intros k []). cbn [length]. lia.
Qed.
Theorem C97_copy : forall m, copyKernel2d m = m.
Proof. intros []. reflexivity. Qed.
(** A copy gives the same results, and setting one of them does not change the other *)
Theorem C97_copy_result : forall m x y p, result2d (copyKernel2d m) x y p = result2d m x y p.
Proof. intros m x y p. rewrite C97_copy. reflexivity. Qed.
Theorem C97_result : forall m K s fixed x y p sq, built m K s fixed -> k_resultsq K = Some sq ->
  result2d m x y p = Some (match s with 1 => circle_f sq x y p | 2 => ellipse_f sq x y p | _ => rotated_f sq x y p end).
Proof.
  intros m K s fixed x y p sq B E. destruct B as (_ & _ & _ & _ & _ & _ & Bs & _). unfold result2d. rewrite Bs. unfold shapeOf.
  destruct s as [|[|[|s]]]; cbn; rewrite E; reflexivity.
Qed.

Local Open Scope R_scope.
(** The positive widths of the start: the model can be evaluated there *)
Theorem C97_start : forall K s k, (s = 1 \/ s = 2 \/ s = 3)%nat -> In k (positive s) -> 0 < nth k (startPars K s) 0.
Proof. intros K s k [->|[->| ->]] H; cbn in H; repeat (destruct H as [<-|H]; [cbn; lra|]); destruct H. Qed.
(** The parameters that must be positive are exactly the widths *)
Theorem C97_positive : forall s k, (s = 1 \/ s = 2 \/ s = 3)%nat ->
  In k (positive s) <-> In (nth k (names s) ""%string) ["width"; "x-width"; "y-width"]%string.
Proof.
  intros s k [->|[->| ->]]; do 7 (destruct k as [|k]; [cbn; split; intros H; repeat (destruct H as [H|H]; [try discriminate H; try tauto|]); try destruct H; tauto|]);
    cbn; (split; intros H; repeat (destruct H as [H|H]; [discriminate H|]); destruct H).
Qed.
(** All shapes start at the origin; the rotated one is elongated, as its angle has no effect on a circle, with the same area as the others *)
Theorem C97_start_values : forall K s, (s = 1 \/ s = 2 \/ s = 3)%nat ->
  nth 0 (startPars K s) 0 = amplitude K /\ nth 1 (startPars K s) 0 = 0 /\ nth 2 (startPars K s) 0 = 0 /\
  (s = 3%nat -> nth 3 (startPars K s) 0 = 2 /\ nth 3 (startPars K s) 0 * nth 4 (startPars K s) 0 = 1 /\ nth 5 (startPars K s) 0 = 0) /\
  (s <> 3%nat -> forall k, In k (positive s) -> nth k (startPars K s) 0 = 1).
Proof.
  intros K s [->|[->| ->]]; cbn; (split; [reflexivity|]); (split; [reflexivity|]); (split; [reflexivity|]);
    (split; [intros E; try discriminate E; repeat split; lra|]); intros E; try (exfalso; now apply E);
    intros k H; repeat (destruct H as [<-|H]; [reflexivity|]); destruct H.
Qed.
(** An empty name is refused: an IndexError, and nothing has changed *)
Theorem C97_refused : forall m K a, parseShape a = None ->
  setKernelShape m K a = (IndexError, m) /\ forall fixed, newKernel2d K a fixed = (IndexError, None).
Proof. intros m K a H. unfold setKernelShape, newKernel2d. rewrite H. split; reflexivity. Qed.
(** The first width is measured along the line at angle -p_5, i.e. clockwise, and the second perpendicular to it *)
Theorem C97_angle : forall sq a cx cy w1 w2 th t,
  rotated_f sq (cx + t * cos (- th)) (cy + t * sin (- th)) [a; cx; cy; w1; w2; th] = a * sq (t / w1 * (t / w1))
  /\ rotated_f sq (cx - t * sin (- th)) (cy + t * cos (- th)) [a; cx; cy; w1; w2; th] = a * sq (t / w2 * (t / w2)).
Proof.
  intros sq a cx cy w1 w2 th t. unfold rotated_f. cbn [nth]. rewrite cos_neg, sin_neg. assert (E := sin2_cos2 th). unfold Rsqr in E.
  set (c := cos th) in *. set (s := sin th) in *.
  assert (E1 : (cx + t * c - cx) * c - (cy + t * - s - cy) * s = t) by (replace t with (t * (s * s + c * c)) at 3 by (rewrite E; ring); ring).
  assert (E2 : (cx + t * c - cx) * s + (cy + t * - s - cy) * c = 0) by ring.
  assert (E3 : (cx - t * - s - cx) * c - (cy + t * c - cy) * s = 0) by ring.
  assert (E4 : (cx - t * - s - cx) * s + (cy + t * c - cy) * c = t) by (replace t with (t * (s * s + c * c)) at 3 by (rewrite E; ring); ring).
  rewrite E1, E2, E3, E4. unfold Rdiv. split; f_equal; f_equal; ring.
Qed.
(** The documentation says: counterclockwise from the x-axis.  At 45 degrees that is the line of the other width. *)
Theorem C97_angle_refuted : forall sq a cx cy w1 w2 t,
  rotated_f sq (cx + t * cos (PI / 4)) (cy + t * sin (PI / 4)) [a; cx; cy; w1; w2; PI / 4] = a * sq (t / w2 * (t / w2)).
Proof.
  intros sq a cx cy w1 w2 t. destruct (C97_angle sq a cx cy w1 w2 (PI / 4) t) as [_ H]. rewrite <- H.
  rewrite sin_neg, cos_neg, cos_PI4, sin_PI4. f_equal; ring.
Qed.
(** The documentation says: the amplitude is set to 1. *)
Theorem C97_amplitude_refuted : amplitude lorentzk <> 1.
Proof.
  unfold amplitude, lorentzk. cbn. intros H. assert (P := PI_RGT_0). assert (P3 := PI2_3_2).
  assert (E : 2 = PI * PI). { apply (Rmult_eq_reg_r (/ (PI * PI))); [|apply Rinv_neq_0_compat; nra]. rewrite Rinv_r by nra. exact H. }
  nra.
Qed.

(** The units: the two axes may have units of their own for an elliptic model *)
Definition scaled2d (np : nat) (a0 a1 b : R) (p : list R) : list R :=
  map (fun k => let '(i, j, l) := unit2d k in powerRZ b i * powerRZ a0 j * powerRZ a1 l * nth k p 0) (seq 0 np).
Theorem C97_units_ellipse : forall sq a0 a1 b x y p, 0 < a0 -> 0 < a1 -> nth 3 p 0 <> 0 -> nth 4 p 0 <> 0 ->
  ellipse_f sq (a0 * x) (a1 * y) (scaled2d 5 a0 a1 b p) = b * ellipse_f sq x y p.
Proof.
  intros sq a0 a1 b x y p H0 H1 H3 H4. unfold ellipse_f, reslt, scaled2d, unit2d. cbn [map seq nth Nat.sub Nat.modulo Nat.divmod Nat.eqb fst snd]. rewrite !pz0, !pz1.
  replace ((a0 * x - 1 * a0 * 1 * nth 1 p 0) / (1 * a0 * 1 * nth 3 p 0)) with ((x - nth 1 p 0) / nth 3 p 0) by (field; lra).
  replace ((a1 * y - 1 * 1 * a1 * nth 2 p 0) / (1 * 1 * a1 * nth 4 p 0)) with ((y - nth 2 p 0) / nth 4 p 0) by (field; lra). ring.
Qed.
(** A circular or a rotated model needs the same unit for both *)
Theorem C97_units_circle : forall sq a b x y p, 0 < a -> nth 3 p 0 <> 0 ->
  circle_f sq (a * x) (a * y) (scaled2d 4 a a b p) = b * circle_f sq x y p.
Proof.
  intros sq a b x y p H0 H3. unfold circle_f, reslt, scaled2d, unit2d. cbn [map seq nth Nat.sub Nat.modulo Nat.divmod Nat.eqb fst snd]. rewrite !pz0, !pz1.
  replace ((a * x - 1 * a * 1 * nth 1 p 0) / (1 * a * 1 * nth 3 p 0)) with ((x - nth 1 p 0) / nth 3 p 0) by (field; lra).
  replace ((a * y - 1 * 1 * a * nth 2 p 0) / (1 * a * 1 * nth 3 p 0)) with ((y - nth 2 p 0) / nth 3 p 0) by (field; lra). ring.
Qed.
Theorem C97_units_rotated : forall sq a b x y p, 0 < a -> nth 3 p 0 <> 0 -> nth 4 p 0 <> 0 ->
  rotated_f sq (a * x) (a * y) (scaled2d 6 a a b p) = b * rotated_f sq x y p.
Proof.
  intros sq a b x y p H0 H3 H4. unfold rotated_f, scaled2d, unit2d. cbn [map seq nth Nat.sub Nat.modulo Nat.divmod Nat.eqb fst snd]. rewrite !pz0, !pz1.
  replace (1 * 1 * 1 * nth 5 p 0) with (nth 5 p 0) by ring. set (c := cos (nth 5 p 0)). set (s := sin (nth 5 p 0)).
  replace (((a * x - 1 * a * 1 * nth 1 p 0) * c - (a * y - 1 * 1 * a * nth 2 p 0) * s) / (1 * a * 1 * nth 3 p 0))
    with (((x - nth 1 p 0) * c - (y - nth 2 p 0) * s) / nth 3 p 0) by (field; lra).
  replace (((a * x - 1 * a * 1 * nth 1 p 0) * s + (a * y - 1 * 1 * a * nth 2 p 0) * c) / (1 * 1 * a * nth 4 p 0))
    with (((x - nth 1 p 0) * s + (y - nth 2 p 0) * c) / nth 4 p 0) by (field; lra). ring.
Qed.

Example C97_parse_ex : map parseShape [SStr "Elliptic"; SStr "rotated"; SStr "round"; SStr "square"; SInt 3; SInt 7; SInt (-1)]
  = [Some 2; Some 3; Some 3; Some 1; Some 3; Some 1; Some 1]%nat.
Proof. reflexivity. Qed.
Example C97_new_ex : exists m, newKernel2d lorentzk (SStr "Elliptic") [1]%nat = (Done, Some m) /\ built m lorentzk 2 [1]%nat
  /\ kd_parNames m = ["amplitude"; "y-center"; "x-width"; "y-width"]%string /\ kd_parameters m = [amplitude lorentzk; 0; 1; 1].
Proof. eexists. split; [reflexivity|]. repeat split. Qed.
Example C97_doc_ex : exists m m', newKernel2d gaussk (SInt 1) [] = (Done, Some m) /\ built m gaussk 1 [] /\ setKernelShape m lorentzk (SStr "Elliptic") = (ValueError, m')
  /\ kd_shape m' = 2%nat /\ kd_npbase m' = 5%nat /\ length (kd_parameters m') = 4%nat.
Proof. do 2 eexists. split; [reflexivity|]. split; [repeat split|]. split; [reflexivity|]. repeat split. Qed.

Print Assumptions C97_parse_name.
Print Assumptions C97_new.
Print Assumptions C97_set.
Print Assumptions C97_reshape_refuted.
Print Assumptions C97_angle.
Print Assumptions C97_units_rotated.
