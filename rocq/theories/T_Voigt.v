(** Theorems C78: the Voigt profile. *)
From Coq Require Import Reals List Lra Lia.
From Coquelicot Require Import Coquelicot.
From Verif Require Import L_Erf L_Faddeeva S_Evidence P_Evidence L_Whole P_Voigt M_Order M_Elem S_Elem M_Voigt.
Import ListNotations.
Local Open Scope R_scope.

(** the Faddeeva function *)
Definition faddeeva (z : C) : C := (wr (fst z) (snd z), wi (fst z) (snd z)).
Notation vgt := (voigt faddeeva).

(** with positive widths *)
Definition broad (x : R) (p : list R) : Prop := 0 < nth 2 p 0.

Lemma sqrt2_pos : 0 < sqrt 2.
Proof. apply sqrt_lt_R0. lra. Qed.
Lemma zz_eq x p : broad x p -> zz x p = ((x - nth 1 p 0) / (nth 2 p 0 * sqrt 2), nth 3 p 0 / (nth 2 p 0 * sqrt 2)) /\ z0 p = (0, nth 3 p 0 / (nth 2 p 0 * sqrt 2)).
Proof.
  intro B. unfold broad in B. assert (S := sqrt2_pos). assert (0 < sigma p) by (now apply Rmult_lt_0_compat). fold (sigma p).
  unfold zz, z0, Cplus, Cdiv, Cmult, Cinv, Ci, RtoC. cbn [fst snd]. assert (0 < sigma p * sigma p) by (now apply Rmult_lt_0_compat). split; f_equal; field; cbn; repeat split; try lra; try nra.
Qed.
Lemma vf_eq x p : broad x p -> voigt_f faddeeva x p = nth 0 p 0 * wr ((x - nth 1 p 0) / (nth 2 p 0 * sqrt 2)) (nth 3 p 0 / (nth 2 p 0 * sqrt 2)) / wr 0 (nth 3 p 0 / (nth 2 p 0 * sqrt 2)).
Proof. intro B. unfold voigt_f. destruct (zz_eq x p B) as [-> ->]. reflexivity. Qed.

(** the parts of the derivative of w *)
Lemma dw_eq a b : (2 * Ci / sqrt PI - 2 * (a, b) * faddeeva (a, b))%C = (dwr a b, dwi a b).
Proof.
  assert (S := sqrtPI_pos). unfold faddeeva, dwr, dwi, Cminus, Cplus, Copp, Cdiv, Cmult, Cinv, Ci, RtoC. cbn [fst snd]. assert (0 < sqrt PI * sqrt PI) by (now apply Rmult_lt_0_compat). f_equal; field; cbn; repeat split; try lra; try nra.
Qed.

(** along a straight line *)
Lemma line_der c a0 a1 b0 b1 (t : R) : let a := a0 + a1 * t in let b := b0 + b1 * t in
  is_derive (fun t => c * wr (a0 + a1 * t) (b0 + b1 * t) / wr 0 (b0 + b1 * t)) t
    (c / wr 0 b / wr 0 b * ((a1 * dwr a b - b1 * dwi a b) * wr 0 b - (- b1 * dwi 0 b) * wr a b)).
Proof.
  intros a b. assert (D1 := wr_der a0 a1 b0 b1 t). fold a b in D1.
  assert (D2 : is_derive (fun t => wr 0 (b0 + b1 * t)) t (- b1 * dwi 0 b)).
  { assert (D := wr_der 0 0 b0 b1 t). fold b in D. replace (0 + 0 * t) with 0 in D by ring.
    replace (- b1 * dwi 0 b) with (0 * dwr 0 b - b1 * dwi 0 b) by ring. revert D. apply is_derive_ext. intro u. f_equal. ring. }
  assert (P := wr_imag_pos b). set (f := fun t => wr (a0 + a1 * t) (b0 + b1 * t)) in *. set (g := fun t => wr 0 (b0 + b1 * t)) in *.
  apply (is_derive_ext (fun t => c * f t / g t)); [reflexivity|]. auto_derive.
  - repeat split; try (eexists; eassumption). unfold g. fold b. lra.
  - replace (Derive (fun x : R => f x) t) with (a1 * dwr a b - b1 * dwi a b) by (symmetry; apply is_derive_unique; exact D1).
    replace (Derive (fun x : R => g x) t) with (- b1 * dwi 0 b) by (symmetry; apply is_derive_unique; exact D2).
    unfold f, g. fold a b. match goal with |- ?u = ?v => change (@eq R u v) end. field. lra.
Qed.

Lemma line_ext (f : R -> R) c a0 a1 b0 b1 (t v : R) : locally t (fun u => f u = c * wr (a0 + a1 * u) (b0 + b1 * u) / wr 0 (b0 + b1 * u)) ->
  (let a := a0 + a1 * t in let b := b0 + b1 * t in v = c / wr 0 b / wr 0 b * ((a1 * dwr a b - b1 * dwi a b) * wr 0 b - (- b1 * dwi 0 b) * wr a b)) -> is_derive f t v.
Proof.
  intros L ->. eapply is_derive_ext_loc; [|apply line_der]. revert L. apply filter_imp. intros u E. now symmetry.
Qed.

(** The partials are the derivatives of the profile to amplitude, centre, width of the Gaussian and width of the Lorentzian. *)
Theorem C78_partials : partials_exact vgt broad.
Proof.
  intros x p L B. change (el_np vgt) with 4%nat in *. destruct p as [|p0 [|p1 [|p2 [|p3 [|? ?]]]]]; try discriminate L. clear L.
  assert (S := sqrt2_pos). assert (B' := B). unfold broad in B'. cbn in B'. assert (SP : 0 < p2 * sqrt 2) by (now apply Rmult_lt_0_compat).
  split; [reflexivity|]. intros k K. unfold basePartial.
  assert (Z := zz_eq x [p0; p1; p2; p3] B). cbn [nth] in Z.
  assert (W := wr_imag_pos (p3 / (p2 * sqrt 2))).
  assert (G : forall k, (k < 4)%nat -> nth k (map (el_part vgt x [p0; p1; p2; p3]) (seq 0 4)) 0 = voigt_part faddeeva x [p0; p1; p2; p3] k) by (intros [|[|[|[|?]]]] ?; [reflexivity..|lia]).
  change (el_np vgt) with 4%nat. rewrite (G k K). clear G. unfold voigt_part. destruct Z as [-> ->]. cbv zeta. rewrite !dw_eq. unfold sigma. cbn [nth].
  destruct k as [|[|[|[|k]]]]; [..|lia]; cbn [upd nth]; change (el_f vgt) with (voigt_f faddeeva).

  all: unfold faddeeva, Re, Cplus, Copp, Cdiv, Cmult, Cinv, Ci, RtoC; cbn [fst snd].
  - apply (is_derive_ext (fun t => t * (wr ((x - p1) / (p2 * sqrt 2)) (p3 / (p2 * sqrt 2)) / wr 0 (p3 / (p2 * sqrt 2))))).
    { intro t. rewrite vf_eq by exact B. cbn [nth]. match goal with |- ?u = ?v => change (@eq R u v) end. field; cbn; repeat split; try lra; nra. }
    auto_derive; trivial. match goal with |- ?u = ?v => change (@eq R u v) end. field; cbn; repeat split; try lra; nra.
  - apply (line_ext _ p0 (x / (p2 * sqrt 2)) (- 1 / (p2 * sqrt 2)) (p3 / (p2 * sqrt 2)) 0).
    + apply filter_forall. intro t. rewrite vf_eq by exact B. cbn [nth]. replace (x / (p2 * sqrt 2) + -1 / (p2 * sqrt 2) * t) with ((x - t) / (p2 * sqrt 2)) by (field; lra).
      replace (p3 / (p2 * sqrt 2) + 0 * t) with (p3 / (p2 * sqrt 2)) by ring. reflexivity.
    + cbv zeta. replace (x / (p2 * sqrt 2) + -1 / (p2 * sqrt 2) * p1) with ((x - p1) / (p2 * sqrt 2)) by (field; lra).
      replace (p3 / (p2 * sqrt 2) + 0 * p1) with (p3 / (p2 * sqrt 2)) by ring. field; cbn; repeat split; try lra; nra.
  - assert (D := line_der p0 0 ((x - p1) / sqrt 2) 0 (p3 / sqrt 2) (/ p2)). cbv zeta in D.
    assert (D2 : is_derive (fun t => / t) p2 (- / (p2 * p2))) by (auto_derive; [lra|]; match goal with |- ?u = ?v => change (@eq R u v) end; field; lra).
    apply (is_derive_ext_loc (fun t => (fun t => p0 * wr (0 + (x - p1) / sqrt 2 * t) (0 + p3 / sqrt 2 * t) / wr 0 (0 + p3 / sqrt 2 * t)) (/ t))).
    { exists (mkposreal _ B'). intros t Ht. unfold ball in Ht. cbn in Ht. unfold AbsRing_ball, abs, minus, plus, opp in Ht. cbn in Ht. apply Rabs_def2 in Ht.
      rewrite vf_eq by (unfold broad; cbn; lra). cbn [nth]. replace (0 + (x - p1) / sqrt 2 * / t) with ((x - p1) / (t * sqrt 2)) by (field; split; lra). replace (0 + p3 / sqrt 2 * / t) with (p3 / (t * sqrt 2)) by (field; split; lra). reflexivity. }
    assert (D3 := is_derive_comp _ _ _ _ _ D D2). match type of D3 with is_derive _ _ ?v => match goal with |- is_derive _ _ ?w => replace w with v; [exact D3|] end end. clear D D2 D3.
    unfold scal. cbn. unfold mult. cbn.
    replace (0 + (x - p1) / sqrt 2 * / p2) with ((x - p1) / (p2 * sqrt 2)) by (field; split; lra). replace (0 + p3 / sqrt 2 * / p2) with (p3 / (p2 * sqrt 2)) by (field; split; lra).
    match goal with |- ?u = ?v => change (@eq R u v) end. field; cbn; repeat split; try lra; nra.
  - apply (line_ext _ p0 ((x - p1) / (p2 * sqrt 2)) 0 0 (/ (p2 * sqrt 2))).
    + apply filter_forall. intro t. rewrite vf_eq by exact B. cbn [nth]. replace ((x - p1) / (p2 * sqrt 2) + 0 * t) with ((x - p1) / (p2 * sqrt 2)) by ring.
      replace (0 + / (p2 * sqrt 2) * t) with (t / (p2 * sqrt 2)) by (field; lra). reflexivity.
    + cbv zeta. replace ((x - p1) / (p2 * sqrt 2) + 0 * p3) with ((x - p1) / (p2 * sqrt 2)) by ring.
      replace (0 + / (p2 * sqrt 2) * p3) with (p3 / (p2 * sqrt 2)) by (field; lra). field; cbn; repeat split; try lra; nra.
Qed.
Print Assumptions C78_partials.

(** The derivative is the slope of the profile. *)
Theorem C78_slope : slope_exact vgt broad.
Proof.
  intros x p L B. change (el_np vgt) with 4%nat in *. destruct p as [|p0 [|p1 [|p2 [|p3 [|? ?]]]]]; try discriminate L. clear L.
  assert (S := sqrt2_pos). assert (B' := B). unfold broad in B'. cbn in B'. assert (SP : 0 < p2 * sqrt 2) by (now apply Rmult_lt_0_compat).
  assert (W := wr_imag_pos (p3 / (p2 * sqrt 2))). change (el_f vgt) with (voigt_f faddeeva). change (el_dx vgt) with (voigt_dx faddeeva).
  apply (line_ext _ p0 (- p1 / (p2 * sqrt 2)) (/ (p2 * sqrt 2)) (p3 / (p2 * sqrt 2)) 0).
  - apply filter_forall. intro t. rewrite vf_eq by exact B. cbn [nth]. replace (- p1 / (p2 * sqrt 2) + / (p2 * sqrt 2) * t) with ((t - p1) / (p2 * sqrt 2)) by (field; lra).
    replace (p3 / (p2 * sqrt 2) + 0 * t) with (p3 / (p2 * sqrt 2)) by ring. reflexivity.
  - cbv zeta. replace (- p1 / (p2 * sqrt 2) + / (p2 * sqrt 2) * x) with ((x - p1) / (p2 * sqrt 2)) by (field; lra).
    replace (p3 / (p2 * sqrt 2) + 0 * x) with (p3 / (p2 * sqrt 2)) by ring.
    unfold voigt_dx. destruct (zz_eq x [p0; p1; p2; p3] B) as [-> ->]. cbn [nth]. rewrite dw_eq. unfold sigma. cbn [nth].
    unfold faddeeva, Re, Cdiv, Cmult, Cinv, RtoC. cbn [fst snd]. field. cbn. assert (0 < wr 0 (p3 / (p2 * sqrt 2)) * (p2 * sqrt 2)) by (now apply Rmult_lt_0_compat). repeat split; try lra; nra.
Qed.
Print Assumptions C78_slope.

(** The amplitude is the value at the centre; the profile is symmetric around it; without Lorentz width it is the Gauss model. *)
Theorem C78_shape x p : broad x p -> voigt_f faddeeva (nth 1 p 0) p = nth 0 p 0 /\ voigt_f faddeeva (nth 1 p 0 + x) p = voigt_f faddeeva (nth 1 p 0 - x) p /\
  (nth 3 p 0 = 0 -> voigt_f faddeeva x p = gauss_f x p).
Proof.
  intro B. assert (S := sqrt2_pos). unfold broad in B. assert (SP : 0 < nth 2 p 0 * sqrt 2) by (now apply Rmult_lt_0_compat). rewrite !vf_eq by exact B.
  set (p1 := nth 1 p 0). set (s := nth 2 p 0 * sqrt 2) in *. assert (W := wr_imag_pos (nth 3 p 0 / s)). split; [|split].
  - replace ((p1 - p1) / s) with 0 by (field; lra). field. lra.
  - replace ((p1 - x - p1) / s) with (- ((p1 + x - p1) / s)) by (field; lra). now rewrite (proj1 (w_even _ _)).
  - intros ->. replace (0 / s) with 0 by (field; lra). rewrite !wr_real. replace (- (0 * 0)) with 0 by ring. rewrite exp_0. unfold gauss_f. fold p1.
    unfold Rdiv at 1. rewrite Rinv_1, Rmult_1_r. apply Rmult_eq_compat_l. apply f_equal. unfold s. clear W s SP.
    assert (E : sqrt 2 * sqrt 2 = 2) by (apply sqrt_sqrt; lra). replace (- (1 / 2)) with (- / (sqrt 2 * sqrt 2)) by (rewrite E; field). field. split; lra.
Qed.
Print Assumptions C78_shape.

(** The profile is the convolution of a Gauss model and a Lorentz model, both around the centre with their own width; only the amplitude is another one. *)
Theorem C78_convolution p : 0 < nth 2 p 0 -> 0 < nth 3 p 0 -> exists K, forall x,
  whole (fun t => K * (gauss_f t [nth 0 p 0; 0; nth 2 p 0] * el_f lorentz (x - t) [1; nth 1 p 0; nth 3 p 0])) (voigt_f faddeeva x p).
Proof.
  intros P2 P3. set (p0 := nth 0 p 0). set (p1 := nth 1 p 0). set (p2 := nth 2 p 0) in *. set (p3 := nth 3 p 0) in *.
  assert (S := sqrt2_pos). assert (S2 : sqrt 2 * sqrt 2 = 2) by (apply sqrt_sqrt; lra). set (s := p2 * sqrt 2). assert (SP : 0 < s) by (now apply Rmult_lt_0_compat).
  assert (SS : s * s = 2 * (p2 * p2)) by (unfold s; transitivity (p2 * p2 * (sqrt 2 * sqrt 2)); [ring|rewrite S2; ring]).
  assert (Y : 0 < p3 / s) by (now apply Rdiv_lt_0_compat). assert (W := wr_imag_pos (p3 / s)). assert (PP := PI_RGT_0).
  exists (/ (wr 0 (p3 / s) * (PI * p3))). intro x. rewrite vf_eq by exact P2. fold p0 p1 p2 p3 s.
  assert (H := whole_unit _ s _ SP (convolution ((x - p1) / s) (p3 / s) Y)). cbv beta in H. apply (whole_scal _ (p0 / wr 0 (p3 / s))) in H.
  replace (p0 * wr ((x - p1) / s) (p3 / s) / wr 0 (p3 / s)) with (p0 / wr 0 (p3 / s) * wr ((x - p1) / s) (p3 / s)) by (field; lra).
  revert H. apply whole_ext. intro t. unfold gauss_f, lorentz, el_f. cbn [nth].
  replace (exp (- (1 / 2) * ((t - 0) * (1 / p2)) * ((t - 0) * (1 / p2)))) with (gs (t / s)).
  - assert (N : 0 < (x - t - p1) * (x - t - p1) + p3 * p3) by (assert (0 <= (x - t - p1) * (x - t - p1)) by apply Rle_0_sqr; assert (0 < p3 * p3) by (now apply Rmult_lt_0_compat); lra).
    replace (p3 / s / (((x - p1) / s - t / s) * ((x - p1) / s - t / s) + p3 / s * (p3 / s))) with (p3 * s / ((x - t - p1) * (x - t - p1) + p3 * p3)).
    + field. repeat split; lra.
    + replace ((x - p1) / s - t / s) with ((x - t - p1) / s) by (field; lra). set (u := x - t - p1) in *. replace (u / s * (u / s) + p3 / s * (p3 / s)) with ((u * u + p3 * p3) / (s * s)) by (field; lra). field. split; lra.
  - unfold gs. f_equal. replace (t / s * (t / s)) with (t * t / (s * s)) by (field; lra). rewrite SS. field. lra.
Qed.
Print Assumptions C78_convolution.

(** The model with partials to the parameters that are not fixed. *)
Theorem C78_selection x p l : List.Forall (fun k => k < 4)%nat l -> basePartial vgt x p (Some l) = map (fun k => nth k (basePartial vgt x p None) 0) l.
Proof.
  intro F. unfold basePartial. apply map_ext_in. intros k K. rewrite List.Forall_forall in F. specialize (F k K). change (el_np vgt) with 4%nat. destruct k as [|[|[|[|k]]]]; [reflexivity..|lia].
Qed.
Print Assumptions C78_selection.

Example C78_example : broad 1 [5; 4; 1; 2] /\ voigt_f faddeeva 4 [5; 4; 1; 2] = 5 /\ voigt_f faddeeva 3 [5; 4; 1; 2] = voigt_f faddeeva 5 [5; 4; 1; 2] /\ length (basePartial vgt 1 [5; 4; 1; 2] None) = 4%nat.
Proof.
  assert (B : forall x, broad x [5; 4; 1; 2]) by (intro; unfold broad; cbn; lra). split; [apply B|]. split; [exact (proj1 (C78_shape 0 _ (B 0)))|]. split; [|reflexivity].
  assert (H := proj1 (proj2 (C78_shape 1 _ (B 1)))). cbn [nth] in H. replace (4 + 1) with 5 in H by ring. replace (4 - 1) with 3 in H by ring. now symmetry.
Qed.
