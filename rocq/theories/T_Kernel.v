(** Property C33: the kernels. *)
From Coquelicot Require Import Coquelicot.
From Coq Require Import Reals Lra Lia List.
From Verif Require Import M_Elem M_Kernel S_Kernel P_Kernel P_Tophat P_Kernels P_Kernint P_Kernlim L_Dirichlet.
Import ListNotations.
Local Open Scope R_scope.

Definition plain_kernels : list kernel :=
  [biweight; triweight; tricube; parabola; cosine; cossquare; triangle; uniformk; gaussk; lorentzk; huber; sinc].

(** The attribute [integral] is the integral over the whole axis (infinite for Huber). *)
Theorem C33_integral : Forall (fun K => whole_integral (k_result K) (k_integral K)) plain_kernels.
Proof.
  repeat constructor; first
    [apply biweight_int|apply triweight_int|apply tricube_int|apply parabola_int|apply cosine_int
    |apply cossquare_int|apply triangle_int|apply uniform_int|apply gauss_int|apply lorentz_int
    |apply huber_int|apply sinc_int].
Qed.

Theorem C33_tophat_integral : forall n K, tophat n = Some K -> whole_integral (k_result K) (k_integral K).
Proof.
  intros n K H.
  destruct n as [|[|[|[|[|[|[|n]]]]]]]; inversion H; subst K; cbn [k_integral tophat_of].
  - apply (radial_int _ _ _ _ _ _ tophat0_radial). intros a A. apply box_int; lra.
  - apply (radial_int _ _ _ _ _ _ tophat1_radial). int1 (fun x : R => x - x*x/2).
  - apply (radial_int _ _ _ _ _ _ c2_radial). intros a A. replace (4/3/2) with (2/3) by field. apply c2_int; exact A.
  - apply (radial_int _ _ _ _ _ _ c3_radial). intros a A. replace (3/2/2) with (3/4) by field. apply c3_int; exact A.
  - apply (radial_int _ _ _ _ _ _ c4_radial). intros a A. replace (192/115/2) with (96/115) by field. apply c4_int; exact A.
  - apply (radial_int _ _ _ _ _ _ c5_radial). intros a A. replace (20/11/2) with (10/11) by field. apply c5_int; exact A.
  - apply (radial_int _ _ _ _ _ _ c6_radial). intros a A. replace (11520/5887/2) with (5760/5887) by field. apply c6_int; exact A.
Qed.

(** The partial is the slope everywhere but in the corners listed. *)
Theorem C33_partials : Forall (fun kc => exact_partial (fst kc) (snd kc))
  [(biweight, []); (triweight, []); (tricube, []); (parabola, [1]); (cosine, [1]); (cossquare, []);
   (triangle, [0; 1]); (uniformk, [1]); (gaussk, []); (lorentzk, []); (huber, [1]); (sinc, [])].
Proof.
  repeat apply Forall_cons; try apply Forall_nil; cbn [fst snd]; unfold exact_partial.
  - apply (radial_partial _ _ _ _ _ biweight_radial).
  - apply (radial_partial _ _ _ _ _ triweight_radial).
  - apply (radial_partial _ _ _ _ _ tricube_radial).
  - apply (radial_partial _ _ _ _ _ parabola_radial).
  - apply (radial_partial _ _ _ _ _ cosine_radial).
  - apply (radial_partial _ _ _ _ _ cossquare_radial).
  - apply (radial_partial _ _ _ _ _ triangle_radial).
  - apply (radial_partial _ _ _ _ _ uniform_radial).
  - intros x _. cbn. auto_derive; [exact I|]. unfold Rdiv. field.
  - intros x _. cbn. assert (Q : 1 + x * x <> 0) by (apply Rgt_not_eq; generalize (Rle_0_sqr x); unfold Rsqr; lra).
    auto_derive; [exact Q|]. field. exact Q.
  - intros x N. apply huber_partial. intros E. apply N. left; symmetry; exact E.
  - intros x _. apply sinc_partial.
Qed.

Theorem C33_tophat_partials : forall n K, tophat n = Some K ->
  exact_partial K (match n with 0%nat => [1/2] | 1%nat => [0; 1] | _ => [] end).
Proof.
  intros n K H. unfold exact_partial.
  destruct n as [|[|[|[|[|[|[|n]]]]]]]; inversion H; subst K.
  - apply (radial_partial _ _ _ _ _ tophat0_radial).
  - apply (radial_partial _ _ _ _ _ tophat1_radial).
  - apply (radial_partial _ _ _ _ _ c2_radial).
  - apply (radial_partial _ _ _ _ _ c3_radial).
  - apply (radial_partial _ _ _ _ _ c4_radial).
  - apply (radial_partial _ _ _ _ _ c5_radial).
  - apply (radial_partial _ _ _ _ _ c6_radial).
Qed.

Lemma radial_peaked K r r' cs m : radial K r r' cs m -> peaked K.
Proof.
  intros H. split; [|split; [apply (radial_even _ _ _ _ _ H)|apply (radial_peak _ _ _ _ _ H)]].
  rewrite (rad_res _ _ _ _ _ H), Rabs_R0. apply (rad_one _ _ _ _ _ H).
Qed.

Lemma radial_in_range K r r' cs m : radial K r r' cs m -> in_range K.
Proof.
  intros H. unfold in_range. rewrite (rad_range _ _ _ _ _ H). split; intros x; cbn; intros X; rewrite (rad_res _ _ _ _ _ H).
  - apply (radial_pos _ _ _ _ _ H). split; [apply Rabs_pos|exact X].
  - apply (rad_out _ _ _ _ _ H). exact X.
Qed.

Ltac rad := first
  [exact biweight_radial|exact triweight_radial|exact tricube_radial|exact parabola_radial|exact cosine_radial
  |exact cossquare_radial|exact triangle_radial|exact uniform_radial|exact tophat0_radial|exact tophat1_radial
  |exact c2_radial|exact c3_radial|exact c4_radial|exact c5_radial|exact c6_radial].

Lemma abs_sq_le (x y : R) : Rabs x <= Rabs y -> x * x <= y * y.
Proof.
  intros H. assert (P := Rabs_pos x). replace (x * x) with (Rabs x * Rabs x) by (unfold Rabs; destruct (Rcase_abs x); ring).
  replace (y * y) with (Rabs y * Rabs y) by (unfold Rabs; destruct (Rcase_abs y); ring). apply Rmult_le_compat; lra.
Qed.

(** Top of height 1 at 0; symmetric; never negative and falling away from 0; all but Sinc. *)
Theorem C33_peaked : Forall peaked
  [biweight; triweight; tricube; parabola; cosine; cossquare; triangle; uniformk; gaussk; lorentzk; huber].
Proof.
  repeat apply Forall_cons; try apply Forall_nil; try (eapply radial_peaked; rad); unfold peaked; cbn.
  - split; [|split].
    + rewrite Rmult_0_r, Rmult_0_r. apply exp_0.
    + intros x. f_equal. ring.
    + intros x y H. split; [left; apply exp_pos|]. apply abs_sq_le in H.
      destruct H as [H|H]; [left; apply exp_increasing; lra|right; rewrite H; reflexivity].
  - split; [|split].
    + field.
    + intros x. replace (- x * - x) with (x * x) by ring. reflexivity.
    + intros x y H. apply abs_sq_le in H. assert (Q := Rle_0_sqr x). unfold Rsqr in Q.
      split; [left; apply Rdiv_lt_0_compat; lra|]. unfold Rdiv. rewrite !Rmult_1_l. apply inv_falls; lra.
  - split; [|split].
    + rewrite Rabs_R0. unfold where_. cases. reflexivity.
    + intros x. rewrite Rabs_Ropp. reflexivity.
    + intros x y H. apply hr_falls; [apply Rabs_pos|exact H].
Qed.

Theorem C33_tophat_peaked : forall n K, tophat n = Some K -> peaked K.
Proof.
  intros n K H. destruct n as [|[|[|[|[|[|[|n]]]]]]]; inversion H; subst K; eapply radial_peaked; rad.
Qed.

(** Sinc has its top at 0 too, but goes below zero. *)
Theorem C33_sinc_top : k_result sinc 0 = 1 /\ (forall x, k_result sinc (- x) = k_result sinc x) /\
  (forall x, Rabs (k_result sinc x) <= 1) /\ k_result sinc (3 / 2) < 0.
Proof.
  split; [|split; [exact sinc_even|split; [exact sinc_bound|]]].
  - cbn. unfold where_. cases. reflexivity.
  - cbn. unfold where_. cases. replace (3 / 2 * PI) with (3 * (PI / 2)) by field. rewrite sin_3PI2.
    assert (P := PI_RGT_0). assert (0 < 1 / (3 * (PI / 2))) by (apply Rdiv_lt_0_compat; lra).
    unfold Rdiv in *. lra.
Qed.

(** [range]: positive inside, zero outside (infinite: positive everywhere). *)
Theorem C33_range : Forall in_range
  [biweight; triweight; tricube; parabola; cosine; cossquare; triangle; uniformk; gaussk; lorentzk; huber].
Proof.
  repeat apply Forall_cons; try apply Forall_nil; try (eapply radial_in_range; rad);
    (split; cbn; [intros x _|intros x F; contradiction]).
  - apply exp_pos.
  - apply Rdiv_lt_0_compat; [lra|]. generalize (Rle_0_sqr x); unfold Rsqr; lra.
  - apply hr_pos. apply Rabs_pos.
Qed.

Theorem C33_tophat_range : forall n K, tophat n = Some K -> in_range K.
Proof.
  intros n K H. destruct n as [|[|[|[|[|[|[|n]]]]]]]; inversion H; subst K; eapply radial_in_range; rad.
Qed.

(** resultsq(x*x) = result(x). *)
Theorem C33_squared : Forall squared_form
  [biweight; triweight; parabola; cosine; cossquare; uniformk; gaussk; lorentzk; huber].
Proof.
  repeat apply Forall_cons; try apply Forall_nil; unfold squared_form; cbn; eexists; (split; [reflexivity|]);
    intros x; cbv beta; try reflexivity.
  - rewrite sqrt_sq, !cosine_abs, Rabs_Rabsolu. reflexivity.
  - unfold cossquare_r. rewrite sqrt_sq, !cosine_abs, Rabs_Rabsolu. reflexivity.
  - apply uniform_sq.
  - rewrite sqrt_sq. reflexivity.
Qed.

(** Three kernels have no resultsq at all. *)
Theorem C33_squared_missing_refuted : Forall (fun K => ~ squared_form K) [tricube; triangle; sinc].
Proof. repeat apply Forall_cons; try apply Forall_nil; intros [sq [E _]]; discriminate E. Qed.

(** Tophat hands the square to result. *)
Theorem C33_squared_tophat_refuted : forall n K, tophat n = Some K -> ~ squared_form K.
Proof.
  intros n K H [sq [E S]].
  destruct n as [|[|[|[|[|[|[|n]]]]]]]; inversion H; subst K; inversion E; subst sq; cbn in S;
  [specialize (S (3/5))|specialize (S (1/2))..]; revert S; rewrite !Rabs_pos_eq by lra;
  unfold c0_r, c1_r, c2_r, c3_r, c4_r, c5_r, c6_r, where_; cases; lra.
Qed.

(** [fwhm], where it is not a rounded decimal. *)
Theorem C33_fwhm : Forall half_width [parabola; cosine; cossquare; triangle; uniformk; gaussk; lorentzk; huber].
Proof.
  repeat apply Forall_cons; try apply Forall_nil;
  [apply parabola_half|apply cosine_half|apply cossquare_half| | |apply gauss_half| |];
  unfold half_width; cbn; unfold uniform_r, where_; rewrite ?Rabs_pos_eq by lra; cases; lra.
Qed.

Theorem C33_tophat_fwhm : forall n K, (n <= 1)%nat -> tophat n = Some K -> half_width K.
Proof.
  intros n K L H. destruct n as [|[|n]]; [| |lia]; inversion H; subst K;
  unfold half_width; cbn; unfold c0_r, c1_r, where_; rewrite Rabs_pos_eq by lra; cases; lra.
Qed.

(** Tophat takes 0 to 6 convolutions. *)
Theorem C33_tophat_known : forall n, (exists K, tophat n = Some K) <-> (n <= 6)%nat.
Proof.
  intros n. split.
  - intros [K H]. destruct n as [|[|[|[|[|[|[|n]]]]]]]; [lia..|discriminate H].
  - intros L. destruct n as [|[|[|[|[|[|[|n]]]]]]]; [eexists; reflexivity..|lia].
Qed.

(** Concrete values. *)
Example C33_biweight_half : k_result biweight (1/2) = 9/16 /\ k_partial biweight (-1/2) = 3/2.
Proof. cbn. unfold where_. rewrite Rabs_left by lra. cases. split; field. Qed.

Example C33_tophat4 : forall K, tophat 4 = Some K -> k_result K 1 = 38/115 /\ k_result K (-2) = 1/230.
Proof.
  intros K H; inversion H; subst K. cbn. rewrite Rabs_R1, Rabs_left by lra. unfold c4_r, where_. cases. split; field.
Qed.

Print Assumptions C33_integral.
Print Assumptions C33_tophat_integral.
Print Assumptions C33_partials.
Print Assumptions C33_tophat_partials.
Print Assumptions C33_peaked.
Print Assumptions C33_range.
Print Assumptions C33_squared.
Print Assumptions C33_squared_missing_refuted.
Print Assumptions C33_squared_tophat_refuted.
Print Assumptions C33_fwhm.
Print Assumptions C33_tophat_known.
