(** Property C49 (and C32 for KernelModel): models made out of a kernel. *)
From Coquelicot Require Import Coquelicot.
From Coq Require Import Reals Lra Lia List.
From Verif Require Import M_Order M_Elem M_Kernel S_Elem S_Kernel P_Kernel P_Elem P_Kernlim P_Kernel2d T_Kernel.
Import ListNotations.
Local Open Scope R_scope.

Theorem C32_kernelmodel : forall K cs, exact_partial K cs ->
  let off_corner x p := nth 2 p 0 <> 0 /\ ~ In (Rabs ((x - nth 1 p 0) / nth 2 p 0)) cs in
  partials_exact (kernelmodel K) off_corner /\ slope_exact (kernelmodel K) off_corner.
Proof. intros K cs E. split; [apply kernelmodel_partials|apply kernelmodel_slope]; exact E. Qed.

(** Columns of partial and members of derivative for a model with inputs (x,y). *)
Definition partials2_exact (np : nat) (f : R -> R -> list R -> R) (part : R -> R -> list R -> nat -> R)
    (dom : R -> R -> list R -> Prop) : Prop :=
  forall x y p, length p = np -> dom x y p ->
    forall k, (k < np)%nat -> is_derive (fun t => f x y (upd k t p)) (nth k p 0) (part x y p k).

Definition slopes2_exact (np : nat) (f : R -> R -> list R -> R) (d : R -> R -> list R -> R * R)
    (dom : R -> R -> list R -> Prop) : Prop :=
  forall x y p, length p = np -> dom x y p ->
    is_derive (fun t => f t y p) x (fst (d x y p)) /\ is_derive (fun t => f x t p) y (snd (d x y p)).

(** the distance to the centre, in units of the widths *)
Definition away (x y w h a : R) : R :=
  sqrt (((x * cos a - y * sin a) / w) ^ 2 + ((x * sin a + y * cos a) / h) ^ 2).

Definition dom3 (cs : list R) (x y : R) (p : list R) : Prop :=
  nth 3 p 0 <> 0 /\ ~ In (away (x - nth 1 p 0) (y - nth 2 p 0) (nth 3 p 0) (nth 3 p 0) 0) cs.
Definition dom4 (cs : list R) (x y : R) (p : list R) : Prop :=
  nth 3 p 0 <> 0 /\ nth 4 p 0 <> 0 /\ ~ In (away (x - nth 1 p 0) (y - nth 2 p 0) (nth 3 p 0) (nth 4 p 0) 0) cs.
Definition dom5 (cs : list R) (x y : R) (p : list R) : Prop :=
  nth 3 p 0 <> 0 /\ nth 4 p 0 <> 0 /\
  ~ In (away (x - nth 1 p 0) (y - nth 2 p 0) (nth 3 p 0) (nth 4 p 0) (nth 5 p 0)) cs.

Lemma away_0 (x y w h : R) : away x y w h 0 = rr (x / w) (y / h).
Proof. unfold away, rr. rewrite cos_0, sin_0. f_equal. unfold Rdiv. ring. Qed.

Lemma away_a (x y w h a : R) : away x y w h a = rr ((x * cos a - y * sin a) / w) ((x * sin a + y * cos a) / h).
Proof. unfold away, rr. f_equal. ring. Qed.

Lemma rr_sq (u v : R) : rr u v * rr u v = u * u + v * v.
Proof. apply sqrt_sqrt. apply sum_pos. Qed.

Lemma rr_0 (u v : R) : rr u v = 0 -> u = 0 /\ v = 0.
Proof.
  intros Z. assert (Q := rr_sq u v). rewrite Z, Rmult_0_r in Q. generalize (Rle_0_sqr u) (Rle_0_sqr v). unfold Rsqr. intros.
  split; apply Rsqr_0_uniq; unfold Rsqr; lra.
Qed.

Ltac five p L := repeat (destruct p as [|? p]; [discriminate L|]; try (destruct p; [|discriminate L]; clear L)).

Ltac lin := auto_derive; [try exact I; try assumption; repeat split; assumption|reflexivity].

Section Two.
Context (K : kernel) (sq : R -> R) (cs : list R)
  (SQ : forall x, sq (x * x) = k_result K x) (EX : exact_partial K cs).
Let kp := k_partial K.

Lemma amp_d (c r : R) : is_derive (fun t => t * c) r c.
Proof. auto_derive; [exact I|ring]. Qed.

Ltac shape U V := evar_last; [apply scal_d; apply (shape_derive K sq cs SQ EX U V);
   [lin|lin|assumption]|].

Lemma circle_partials : partials2_exact 4 (circle_f sq) (circle_part sq kp) (dom3 cs).
Proof.
  intros x y p L [D N] k Hk. five p L. cbn in D, N. rewrite away_0 in N.
  unfold circle_f, reslt, circle_part.
  destruct k as [|[|[|[|k]]]]; [| | | |lia]; cbn [nth upd].
  - apply amp_d.
  - shape (fun t => (x - t) / r2) (fun _ : R => (y - r1) / r2). unfold dir, rr, kp. field. exact D.
  - shape (fun _ : R => (x - r0) / r2) (fun t => (y - t) / r2). unfold dir, rr, kp. field. exact D.
  - shape (fun t => (x - r0) / t) (fun t => (y - r1) / t). fold (rr ((x - r0) / r2) ((y - r1) / r2)) in *.
    set (rad := rr ((x - r0) / r2) ((y - r1) / r2)) in *. unfold dir, where_.
    destruct (Req_EM_T rad 0) as [Z|Z].
    + rewrite Z in N. rewrite Z. destruct (flat0 K sq cs SQ EX N) as [F _]. fold kp in F. unfold kp in *. rewrite F. field. exact D.
    + assert (Q := rr_sq ((x - r0) / r2) ((y - r1) / r2)). fold rad in Q.
      apply Rmult_eq_reg_r with (rad * r2); [|apply Rmult_integral_contrapositive; split; assumption].
      transitivity (- r * kp rad * (((x - r0) / r2) * ((x - r0) / r2) + ((y - r1) / r2) * ((y - r1) / r2))).
      * unfold kp. field. split; assumption.
      * rewrite <- Q. field. exact D.
Qed.

Lemma ellipse_partials : partials2_exact 5 (ellipse_f sq) (ellipse_part sq kp) (dom4 cs).
Proof.
  intros x y p L [D [D' N]] k Hk. five p L. cbn in D, D', N. rewrite away_0 in N.
  unfold ellipse_f, reslt, ellipse_part.
  destruct k as [|[|[|[|[|k]]]]]; [| | | | |lia]; cbn [nth upd].
  - apply amp_d.
  - shape (fun t => (x - t) / r2) (fun _ : R => (y - r1) / r3). unfold dir, rr, kp. field. exact D.
  - shape (fun _ : R => (x - r0) / r2) (fun t => (y - t) / r3). unfold dir, rr, kp. field. exact D'.
  - shape (fun t => (x - r0) / t) (fun _ : R => (y - r1) / r3). unfold dir, rr, kp. field. exact D.
  - shape (fun _ : R => (x - r0) / r2) (fun t => (y - r1) / t). unfold dir, rr, kp. field. exact D'.
Qed.

Lemma rotated_partials : partials2_exact 6 (rotated_f sq) (rotated_part sq kp) (dom5 cs).
Proof.
  intros x y p L [D [D' N]] k Hk. five p L. cbn in D, D', N. rewrite away_a in N.
  unfold rotated_f, rotated_part.
  destruct k as [|[|[|[|[|[|k]]]]]]; [| | | | | |lia]; cbn [nth upd].
  - apply amp_d.
  - shape (fun t => ((x - t) * cos r4 - (y - r1) * sin r4) / r2) (fun t => ((x - t) * sin r4 + (y - r1) * cos r4) / r3).
    unfold dir, rr, kp. field. split; assumption.
  - shape (fun t => ((x - r0) * cos r4 - (y - t) * sin r4) / r2) (fun t => ((x - r0) * sin r4 + (y - t) * cos r4) / r3).
    unfold dir, rr, kp. field. split; assumption.
  - shape (fun t => ((x - r0) * cos r4 - (y - r1) * sin r4) / t) (fun _ : R => ((x - r0) * sin r4 + (y - r1) * cos r4) / r3).
    unfold dir, rr, kp. field. exact D.
  - shape (fun _ : R => ((x - r0) * cos r4 - (y - r1) * sin r4) / r2) (fun t => ((x - r0) * sin r4 + (y - r1) * cos r4) / t).
    unfold dir, rr, kp. field. exact D'.
  - shape (fun t => ((x - r0) * cos t - (y - r1) * sin t) / r2) (fun t => ((x - r0) * sin t + (y - r1) * cos t) / r3).
    unfold dir, rr, kp. field. split; assumption.
Qed.

Lemma deriv_slopes (x y r r0 r1 w h : R) : w <> 0 -> h <> 0 ->
  let u := (x - r0) / w in let v := (y - r1) / h in
  ~ In (rr u v) cs -> rr u v <> 0 ->
  is_derive (fun t => r * sq ((t - r0) / w * ((t - r0) / w) + v * v)) x (r * kp (rr u v) * (u / rr u v) / w) /\
  is_derive (fun t => r * sq (u * u + (t - r1) / h * ((t - r1) / h))) y (r * kp (rr u v) * (v / rr u v) / h).
Proof.
  intros W H u v N Z. split.
  - shape (fun t => (t - r0) / w) (fun _ : R => v). fold u. unfold dir, where_, kp.
    destruct (Req_EM_T (rr u v) 0) as [Q|_]; [contradiction|]. field. split; assumption.
  - shape (fun _ : R => u) (fun t => (t - r1) / h). fold v. unfold dir, where_, kp.
    destruct (Req_EM_T (rr u v) 0) as [Q|_]; [contradiction|]. field. split; assumption.
Qed.

Lemma circle_slopes : slopes2_exact 4 (circle_f sq) (circle_d kp) (dom3 (0 :: cs)).
Proof.
  intros x y p L [D N]. five p L. cbn in D, N. rewrite away_0 in N.
  assert (N1 : ~ In (rr ((x - r0) / r2) ((y - r1) / r2)) cs) by tauto.
  assert (N2 : rr ((x - r0) / r2) ((y - r1) / r2) <> 0) by (intros Q; apply N; left; symmetry; exact Q).
  exact (deriv_slopes x y r r0 r1 r2 r2 D D N1 N2).
Qed.

Lemma ellipse_slopes : slopes2_exact 5 (ellipse_f sq) (ellipse_d kp) (dom4 (0 :: cs)).
Proof.
  intros x y p L [D [D' N]]. five p L. cbn in D, D', N. rewrite away_0 in N.
  assert (N1 : ~ In (rr ((x - r0) / r2) ((y - r1) / r3)) cs) by tauto.
  assert (N2 : rr ((x - r0) / r2) ((y - r1) / r3) <> 0) by (intros Q; apply N; left; symmetry; exact Q).
  exact (deriv_slopes x y r r0 r1 r2 r3 D D' N1 N2).
Qed.

Lemma rotated_slopes : slopes2_exact 6 (rotated_f sq) (rotated_d kp) (dom5 cs).
Proof.
  intros x y p L [D [D' N]]. five p L. cbn in D, D', N. rewrite away_a in N.
  unfold rotated_f, rotated_d. cbn [nth fst snd]. split.
  - shape (fun t => ((t - r0) * cos r4 - (y - r1) * sin r4) / r2) (fun t => ((t - r0) * sin r4 + (y - r1) * cos r4) / r3).
    unfold dir, rr, kp. field. split; assumption.
  - shape (fun t => ((x - r0) * cos r4 - (t - r1) * sin r4) / r2) (fun t => ((x - r0) * sin r4 + (t - r1) * cos r4) / r3).
    unfold dir, rr, kp. field. split; assumption.
Qed.
End Two.

(** For every kernel whose resultsq is right and whose partial is exact, the three shapes have exact
    partials and slopes.  (Circle and ellipse: the slope is 0/0 in the centre.) *)
Theorem C49_circle : forall K sq cs, k_resultsq K = Some sq -> squared_form K -> exact_partial K cs ->
  partials2_exact 4 (circle_f sq) (circle_part sq (k_partial K)) (dom3 cs) /\
  slopes2_exact 4 (circle_f sq) (circle_d (k_partial K)) (dom3 (0 :: cs)).
Proof.
  intros K sq cs E [sq' [E' S]] X. rewrite E in E'. injection E' as <-.
  split; [apply circle_partials|apply circle_slopes]; assumption.
Qed.

Theorem C49_ellipse : forall K sq cs, k_resultsq K = Some sq -> squared_form K -> exact_partial K cs ->
  partials2_exact 5 (ellipse_f sq) (ellipse_part sq (k_partial K)) (dom4 cs) /\
  slopes2_exact 5 (ellipse_f sq) (ellipse_d (k_partial K)) (dom4 (0 :: cs)).
Proof.
  intros K sq cs E [sq' [E' S]] X. rewrite E in E'. injection E' as <-.
  split; [apply ellipse_partials|apply ellipse_slopes]; assumption.
Qed.

Theorem C49_rotated : forall K sq cs, k_resultsq K = Some sq -> squared_form K -> exact_partial K cs ->
  partials2_exact 6 (rotated_f sq) (rotated_part sq (k_partial K)) (dom5 cs) /\
  slopes2_exact 6 (rotated_f sq) (rotated_d (k_partial K)) (dom5 cs).
Proof.
  intros K sq cs E [sq' [E' S]] X. rewrite E in E'. injection E' as <-.
  split; [apply rotated_partials|apply rotated_slopes]; assumption.
Qed.

(** What the shapes are: the profile of the kernel along any ray from the centre, and lines of equal
    value are circles of radius p3, ellipses with half axes p3, p4, and those turned over p5. *)
Theorem C49_profile : forall K sq, k_resultsq K = Some sq -> squared_form K ->
  forall x y p,
    circle_f sq x y p = nth 0 p 0 * k_result K (away (x - nth 1 p 0) (y - nth 2 p 0) (nth 3 p 0) (nth 3 p 0) 0) /\
    ellipse_f sq x y p = nth 0 p 0 * k_result K (away (x - nth 1 p 0) (y - nth 2 p 0) (nth 3 p 0) (nth 4 p 0) 0) /\
    rotated_f sq x y p = nth 0 p 0 * k_result K (away (x - nth 1 p 0) (y - nth 2 p 0) (nth 3 p 0) (nth 4 p 0) (nth 5 p 0)).
Proof.
  intros K sq E [sq' [E' S]] x y p. rewrite E in E'. injection E' as <-.
  assert (Q : forall u v, sq (u * u + v * v) = k_result K (rr u v)) by (intros u v; rewrite <- S, rr_sq; reflexivity).
  rewrite !away_0, away_a. unfold circle_f, ellipse_f, reslt, rotated_f. cbv zeta. rewrite !Q. auto.
Qed.

(** A Tophat (0 convolutions) circle of radius 1: at distance 0.6 the value of result is 0, but the
    model gives the full amplitude. *)
Theorem C49_tophat_refuted : exists K sq, tophat 0 = Some K /\ k_resultsq K = Some sq /\
  k_result K (3/5) = 0 /\ circle_f sq (3/5) 0 [1; 0; 0; 1] = 1.
Proof.
  eexists; eexists; split; [reflexivity|]. split; [reflexivity|]. cbn. unfold circle_f, reslt. cbn [nth].
  replace ((3 / 5 - 0) / 1 * ((3 / 5 - 0) / 1) + (0 - 0) / 1 * ((0 - 0) / 1)) with (9/25) by field.
  rewrite !Rabs_pos_eq by lra. unfold c0_r, where_. P_Kernels.cases. split; lra.
Qed.

(** The conditions are met: nine kernels have both forms. *)
Example C49_gauss_circle :
  squared_form gaussk /\ exact_partial gaussk [] /\ dom3 [] 1 2 [1; 0; 0; 1] /\ dom5 [] 1 2 [1; 0; 0; 1; 2; 1].
Proof.
  split; [|split].
  - exists (fun xsq => exp (- (1 / 2) * xsq)). split; reflexivity.
  - assert (H := C33_partials). rewrite Forall_forall in H. apply (H (gaussk, [])). cbn. tauto.
  - unfold dom3, dom5. cbn. repeat split; try lra; tauto.
Qed.

Example C32_kernel_biweight :
  exact_partial biweight [] /\ el_f (kernelmodel biweight) 1 [2; 0; 2] = 9/8.
Proof.
  split.
  - assert (H := C33_partials). rewrite Forall_forall in H. apply (H (biweight, [])). cbn. tauto.
  - cbn. unfold where_. P_Kernels.cases; field.
Qed.

Print Assumptions C32_kernelmodel.
Print Assumptions C49_circle.
Print Assumptions C49_ellipse.
Print Assumptions C49_rotated.
Print Assumptions C49_profile.
Print Assumptions C49_tophat_refuted.
