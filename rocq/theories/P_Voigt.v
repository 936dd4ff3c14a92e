(** The real part of the Faddeeva function above the real axis is a convolution of a Gaussian and a Lorentzian. *)
From Coquelicot Require Import Coquelicot.
From Coq Require Import Reals Lra Lia.
From Verif Require Import L_Erf L_Faddeeva S_Evidence P_Evidence L_Whole.
Local Open Scope R_scope.

(** i / ( z - t ) exp( -t^2 ), z = a + ib *)
Definition nn (a b t : R) : R := (a - t) * (a - t) + b * b.
Definition kr (a b t : R) : R := gs t * b / nn a b t.
Definition ki (a b t : R) : R := gs t * (a - t) / nn a b t.
(** its derivative to z *)
Definition mr (a b t : R) : R := gs t * (- 2 * (a - t) * b) / (nn a b t * nn a b t).
Definition mi (a b t : R) : R := gs t * (b * b - (a - t) * (a - t)) / (nn a b t * nn a b t).
Lemma nn_pos a b t : 0 < b -> 0 < nn a b t.
Proof. intro H. unfold nn. assert (0 < b * b) by nra. assert (0 <= (a - t) * (a - t)) by apply Rle_0_sqr. lra. Qed.
Lemma gs_der (t : R) : is_derive gs t (- 2 * t * gs t).
Proof. unfold gs. auto_derive; trivial. rr. Qed.
Lemma gs_bounds t : 0 < gs t <= 1.
Proof. unfold gs. split; [apply exp_pos|]. rewrite <- exp_0. destruct (Req_dec t 0) as [->|N]; [rewrite Rmult_0_l, Ropp_0; lra|]. left. apply exp_increasing. assert (0 < t * t) by (apply Rsqr_pos_lt, N). lra. Qed.

Lemma kr_der_t a b (t : R) : 0 < b -> is_derive (fun t => kr a b t) t (- mr a b t - 2 * (a * kr a b t - b * ki a b t)).
Proof.
  intro B. assert (N := nn_pos a b t B). unfold kr, ki, mr. assert (D := gs_der t). unfold nn in *. auto_derive.
  - repeat split; [eexists; exact D|lra].
  - replace (Derive (fun x : R => gs x) t) with (- 2 * t * gs t) by (symmetry; apply is_derive_unique; exact D). match goal with |- ?u = ?v => change (@eq R u v) end. field. lra.
Qed.
Lemma ki_der_t a b (t : R) : 0 < b -> is_derive (fun t => ki a b t) t (- mi a b t - 2 * (a * ki a b t + b * kr a b t) + 2 * gs t).
Proof.
  intro B. assert (N := nn_pos a b t B). unfold kr, ki, mi. assert (D := gs_der t). unfold nn in *. auto_derive.
  - repeat split; [eexists; exact D|lra].
  - replace (Derive (fun x : R => gs x) t) with (- 2 * t * gs t) by (symmetry; apply is_derive_unique; exact D). match goal with |- ?u = ?v => change (@eq R u v) end. field. lra.
Qed.
Lemma kr_cont a b t : 0 < b -> continuous (kr a b) t.
Proof. intro B. apply (ex_derive_continuous (V := R_NormedModule)). eexists. now apply kr_der_t. Qed.
Lemma ki_cont a b t : 0 < b -> continuous (ki a b) t.
Proof. intro B. apply (ex_derive_continuous (V := R_NormedModule)). eexists. now apply ki_der_t. Qed.
Lemma mr_cont a b t : 0 < b -> continuous (mr a b) t.
Proof.
  intro B. assert (N := nn_pos a b t B). apply (ex_derive_continuous (V := R_NormedModule)). unfold mr, nn in *. auto_derive. repeat split; [eexists; apply gs_der|].
assert (0 < ((a + - t) * (a + - t) + b * b) * ((a + - t) * (a + - t) + b * b)) by (apply Rmult_lt_0_compat; exact N). lra.
Qed.
Lemma mi_cont a b t : 0 < b -> continuous (mi a b) t.
Proof.
  intro B. assert (N := nn_pos a b t B). apply (ex_derive_continuous (V := R_NormedModule)). unfold mi, nn in *. auto_derive. repeat split; [eexists; apply gs_der|].
  assert (0 < ((a + - t) * (a + - t) + b * b) * ((a + - t) * (a + - t) + b * b)) by (apply Rmult_lt_0_compat; exact N). lra.
Qed.
Lemma cint (f : R -> R) S T : (forall t, continuous f t) -> ex_RInt f S T.
Proof. intro H. apply (ex_RInt_continuous (V := R_CompleteNormedModule)). auto. Qed.

Definition Ur (S T a b : R) : R := RInt (kr a b) S T.
Definition Ui (S T a b : R) : R := RInt (ki a b) S T.

Lemma mr_sum S T a b : 0 < b -> RInt (mr a b) S T = - (kr a b T - kr a b S) - 2 * (a * Ur S T a b - b * Ui S T a b).
Proof.
  intro B.
  assert (I : is_RInt (fun t => - mr a b t - 2 * (a * kr a b t - b * ki a b t)) S T (minus (kr a b T) (kr a b S))).
  { apply (is_RInt_derive (V := R_CompleteNormedModule) (kr a b)); intros t _; [now apply kr_der_t|].
    apply (continuous_minus (V := R_NormedModule)); [apply (continuous_opp (V := R_NormedModule)); now apply mr_cont|].
    apply (continuous_scal_r (V := R_NormedModule) 2). apply (continuous_minus (V := R_NormedModule)); apply (continuous_scal_r (V := R_NormedModule)); [now apply kr_cont|now apply ki_cont]. }
  assert (J := RInt_correct (V := R_CompleteNormedModule) (mr a b) S T (cint _ _ _ (fun t => mr_cont a b t B))).
  assert (K := RInt_correct (V := R_CompleteNormedModule) (kr a b) S T (cint _ _ _ (fun t => kr_cont a b t B))).
  assert (L := RInt_correct (V := R_CompleteNormedModule) (ki a b) S T (cint _ _ _ (fun t => ki_cont a b t B))).
  fold (Ur S T a b) in K. fold (Ui S T a b) in L.
  assert (M : is_RInt (fun t => - mr a b t - 2 * (a * kr a b t - b * ki a b t)) S T (- RInt (mr a b) S T - 2 * (a * Ur S T a b - b * Ui S T a b))).
  { apply (is_RInt_minus (V := R_NormedModule)); [now apply (is_RInt_opp (V := R_NormedModule))|].
    apply (is_RInt_scal (V := R_NormedModule)). apply (is_RInt_minus (V := R_NormedModule)); now apply (is_RInt_scal (V := R_NormedModule)). }
  apply (is_RInt_unique (V := R_CompleteNormedModule)) in I. apply (is_RInt_unique (V := R_CompleteNormedModule)) in M. assert (E : kr a b T - kr a b S = - RInt (mr a b) S T - 2 * (a * Ur S T a b - b * Ui S T a b)) by (exact (eq_trans (eq_sym I) M)).
  set (m := RInt (mr a b) S T) in *. match goal with |- ?u = ?v => change (@eq R u v) end. match type of E with ?u = ?v => change (@eq R u v) in E end. clearbody m. clear - E. lra.
Qed.
Lemma mi_sum S T a b : 0 < b -> RInt (mi a b) S T = - (ki a b T - ki a b S) - 2 * (a * Ui S T a b + b * Ur S T a b) + 2 * (gi T - gi S).
Proof.
  intro B.
  assert (I : is_RInt (fun t => - mi a b t - 2 * (a * ki a b t + b * kr a b t) + 2 * gs t) S T (minus (ki a b T) (ki a b S))).
  { apply (is_RInt_derive (V := R_CompleteNormedModule) (ki a b)); intros t _; [now apply ki_der_t|].
    apply (continuous_plus (V := R_NormedModule)); [|apply (continuous_scal_r (V := R_NormedModule) 2), gs_cont].
    apply (continuous_minus (V := R_NormedModule)); [apply (continuous_opp (V := R_NormedModule)); now apply mi_cont|].
    apply (continuous_scal_r (V := R_NormedModule) 2). apply (continuous_plus (V := R_NormedModule)); apply (continuous_scal_r (V := R_NormedModule)); [now apply ki_cont|now apply kr_cont]. }
  assert (J := RInt_correct (V := R_CompleteNormedModule) (mi a b) S T (cint _ _ _ (fun t => mi_cont a b t B))).
  assert (K := RInt_correct (V := R_CompleteNormedModule) (kr a b) S T (cint _ _ _ (fun t => kr_cont a b t B))).
  assert (L := RInt_correct (V := R_CompleteNormedModule) (ki a b) S T (cint _ _ _ (fun t => ki_cont a b t B))).
  fold (Ur S T a b) in K. fold (Ui S T a b) in L.
  assert (G : is_RInt gs S T (gi T - gi S)). { apply (is_RInt_derive (V := R_CompleteNormedModule) gi gs); intros t _; [apply gi_derive|apply gs_cont]. }
  assert (M : is_RInt (fun t => - mi a b t - 2 * (a * ki a b t + b * kr a b t) + 2 * gs t) S T (- RInt (mi a b) S T - 2 * (a * Ui S T a b + b * Ur S T a b) + 2 * (gi T - gi S))).
  { apply (is_RInt_plus (V := R_NormedModule)); [|now apply (is_RInt_scal (V := R_NormedModule))].
    apply (is_RInt_minus (V := R_NormedModule)); [now apply (is_RInt_opp (V := R_NormedModule))|].
    apply (is_RInt_scal (V := R_NormedModule)). apply (is_RInt_plus (V := R_NormedModule)); now apply (is_RInt_scal (V := R_NormedModule)). }
  apply (is_RInt_unique (V := R_CompleteNormedModule)) in I. apply (is_RInt_unique (V := R_CompleteNormedModule)) in M. assert (E : ki a b T - ki a b S = - RInt (mi a b) S T - 2 * (a * Ui S T a b + b * Ur S T a b) + 2 * (gi T - gi S)) by (exact (eq_trans (eq_sym I) M)).
  set (m := RInt (mi a b) S T) in *. match goal with |- ?u = ?v => change (@eq R u v) end. match type of E with ?u = ?v => change (@eq R u v) in E end. clearbody m. clear - E. lra.
Qed.

(** along a straight line above the real axis *)
Section Line.
Variables S T a0 a1 b0 b1 : R.
Let a (r : R) : R := a0 + a1 * r.
Let b (r : R) : R := b0 + b1 * r.
Lemma kr_der_r t (r : R) : 0 < b r -> is_derive (fun r => kr (a r) (b r) t) r (a1 * mr (a r) (b r) t - b1 * mi (a r) (b r) t).
Proof.
  intro B. assert (N := nn_pos (a r) (b r) t B). unfold kr, mr, mi, nn, a, b in *. auto_derive; [repeat split; lra|]. match goal with |- ?u = ?v => change (@eq R u v) end. field. lra.
Qed.
Lemma ki_der_r t (r : R) : 0 < b r -> is_derive (fun r => ki (a r) (b r) t) r (a1 * mi (a r) (b r) t + b1 * mr (a r) (b r) t).
Proof.
  intro B. assert (N := nn_pos (a r) (b r) t B). unfold ki, mr, mi, nn, a, b in *. auto_derive; [repeat split; lra|]. match goal with |- ?u = ?v => change (@eq R u v) end. field. lra.
Qed.
Lemma b_loc (r : R) : 0 < b r -> locally r (fun u => 0 < b u).
Proof.
  intro B. assert (Cn : continuous b r) by (apply (ex_derive_continuous (V := R_NormedModule)); unfold b; now auto_derive).
  apply (Cn (fun y => 0 < y)). exists (mkposreal _ B). intros y Hy. unfold ball in Hy. cbn in Hy. unfold AbsRing_ball, abs, minus, plus, opp in Hy. cbn in Hy. apply Rabs_def2 in Hy. lra.
Qed.
Lemma b_loc2 (r t : R) : 0 < b r -> locally_2d (fun u _ => 0 < b u) r t.
Proof. intro B. destruct (b_loc r B) as [d D]. exists d. intros u v U _. apply D. exact U. Qed.

Ltac c2 := repeat first
  [ assumption | apply continuity_2d_pt_id1 | apply continuity_2d_pt_id2 | apply continuity_2d_pt_const
  | apply continuity_2d_pt_mult | apply continuity_2d_pt_minus | apply continuity_2d_pt_plus | apply continuity_2d_pt_opp | apply continuity_2d_pt_inv
  | apply (continuity_1d_2d_pt_comp exp); [apply derivable_continuous_pt, derivable_pt_exp|] ].
Lemma mr_2d (r t : R) : 0 < b r -> continuity_2d_pt (fun u v => mr (a u) (b u) v) r t.
Proof. intro B. assert (N := nn_pos (a r) (b r) t B). assert (N2 : nn (a r) (b r) t * nn (a r) (b r) t <> 0) by nra. unfold mr, gs, Rdiv. unfold nn in *. unfold a, b in *. c2. Qed.
Lemma mi_2d (r t : R) : 0 < b r -> continuity_2d_pt (fun u v => mi (a u) (b u) v) r t.
Proof. intro B. assert (N := nn_pos (a r) (b r) t B). assert (N2 : nn (a r) (b r) t * nn (a r) (b r) t <> 0) by nra. unfold mi, gs, Rdiv. unfold nn in *. unfold a, b in *. c2. Qed.
Lemma Ur_der (r : R) : 0 < b r -> is_derive (fun r => Ur S T (a r) (b r)) r (a1 * RInt (mr (a r) (b r)) S T - b1 * RInt (mi (a r) (b r)) S T).
Proof.
  intro B. unfold Ur. evar_last.
  { apply (is_derive_RInt_param (fun r t => kr (a r) (b r) t) S T r).
    - generalize (b_loc r B). apply filter_imp. intros u U t _. eexists. now apply kr_der_r.
    - intros t _. apply continuity_2d_pt_ext_loc with (f := fun u v => a1 * mr (a u) (b u) v - b1 * mi (a u) (b u) v).
      + destruct (b_loc2 r t B) as [d D]. exists d. intros u v U V. symmetry. apply is_derive_unique. apply kr_der_r. now apply (D u v).
      + apply continuity_2d_pt_minus; (apply continuity_2d_pt_mult; [apply continuity_2d_pt_const|]); [now apply mr_2d|now apply mi_2d].
    - generalize (b_loc r B). apply filter_imp. intros u U. apply cint. intro t. now apply kr_cont. }
  etransitivity; [apply (RInt_ext _ (fun t => a1 * mr (a r) (b r) t - b1 * mi (a r) (b r) t))|].
  - intros t _. apply is_derive_unique. now apply kr_der_r.
  - apply is_RInt_unique. apply (is_RInt_minus (V := R_NormedModule)); apply (is_RInt_scal (V := R_NormedModule)); apply (RInt_correct (V := R_CompleteNormedModule)); apply cint; intro t; [now apply mr_cont|now apply mi_cont].
Qed.
Lemma Ui_der (r : R) : 0 < b r -> is_derive (fun r => Ui S T (a r) (b r)) r (a1 * RInt (mi (a r) (b r)) S T + b1 * RInt (mr (a r) (b r)) S T).
Proof.
  intro B. unfold Ui. evar_last.
  { apply (is_derive_RInt_param (fun r t => ki (a r) (b r) t) S T r).
    - generalize (b_loc r B). apply filter_imp. intros u U t _. eexists. now apply ki_der_r.
    - intros t _. apply continuity_2d_pt_ext_loc with (f := fun u v => a1 * mi (a u) (b u) v + b1 * mr (a u) (b u) v).
      + destruct (b_loc2 r t B) as [d D]. exists d. intros u v U V. symmetry. apply is_derive_unique. apply ki_der_r. now apply (D u v).
      + apply continuity_2d_pt_plus; (apply continuity_2d_pt_mult; [apply continuity_2d_pt_const|]); [now apply mi_2d|now apply mr_2d].
    - generalize (b_loc r B). apply filter_imp. intros u U. apply cint. intro t. now apply ki_cont. }
  etransitivity; [apply (RInt_ext _ (fun t => a1 * mi (a r) (b r) t + b1 * mr (a r) (b r) t))|].
  - intros t _. apply is_derive_unique. now apply ki_der_r.
  - apply is_RInt_unique. apply (is_RInt_plus (V := R_NormedModule)); apply (is_RInt_scal (V := R_NormedModule)); apply (RInt_correct (V := R_CompleteNormedModule)); apply cint; intro t; [now apply mi_cont|now apply mr_cont].
Qed.

(** the difference between the convolution (from S to T) and w, times exp( z^2 ), has a small derivative *)
Definition hr (a b : R) : R := Ur S T a b / PI - wr a b.
Definition hi (a b : R) : R := Ui S T a b / PI - wi a b.
Definition er (a b : R) : R := - (kr a b T - kr a b S) / PI.
Definition ei (a b : R) : R := (- (ki a b T - ki a b S) + 2 * (gi T - gi S)) / PI - 2 / sqrt PI.
Definition zr (a b : R) : R := exp (a * a - b * b) * cos (2 * (a * b)).
Definition zi (a b : R) : R := exp (a * a - b * b) * sin (2 * (a * b)).
Lemma hr_der (r : R) : 0 < b r -> is_derive (fun r => hr (a r) (b r)) r
  (a1 * (er (a r) (b r) - 2 * (a r * hr (a r) (b r) - b r * hi (a r) (b r))) - b1 * (ei (a r) (b r) - 2 * (a r * hi (a r) (b r) + b r * hr (a r) (b r)))).
Proof.
  intro B. unfold hr. evar_last.
  { apply (is_derive_minus (V := R_NormedModule)); [|apply wr_der].
    apply (is_derive_ext (fun r => / PI * Ur S T (a r) (b r))). { intro u. unfold Rdiv. apply Rmult_comm. }
    apply is_derive_scal. now apply Ur_der. }
  rewrite mr_sum, mi_sum by exact B. fold (a r). fold (b r). match goal with |- minus ?p ?q = ?v => change (p - q = v) end.
  unfold er, ei, hr, hi, dwr, dwi. assert (P := PI_RGT_0). assert (SP := sqrtPI_pos). match goal with |- ?u = ?v => change (@eq R u v) end. field. split; lra.
Qed.
Lemma hi_der (r : R) : 0 < b r -> is_derive (fun r => hi (a r) (b r)) r
  (a1 * (ei (a r) (b r) - 2 * (a r * hi (a r) (b r) + b r * hr (a r) (b r))) + b1 * (er (a r) (b r) - 2 * (a r * hr (a r) (b r) - b r * hi (a r) (b r)))).
Proof.
  intro B. unfold hi. evar_last.
  { apply (is_derive_minus (V := R_NormedModule)); [|apply wi_der].
    apply (is_derive_ext (fun r => / PI * Ui S T (a r) (b r))). { intro u. unfold Rdiv. apply Rmult_comm. }
    apply is_derive_scal. now apply Ui_der. }
  rewrite mr_sum, mi_sum by exact B. fold (a r). fold (b r). match goal with |- minus ?p ?q = ?v => change (p - q = v) end.
  unfold er, ei, hr, hi, dwr, dwi. assert (P := PI_RGT_0). assert (SP := sqrtPI_pos). match goal with |- ?u = ?v => change (@eq R u v) end. field. split; lra.
Qed.
Definition cr (a b : R) : R := zr a b * hr a b - zi a b * hi a b.
Definition ci (a b : R) : R := zr a b * hi a b + zi a b * hr a b.
Lemma cr_der (r : R) : 0 < b r -> is_derive (fun r => cr (a r) (b r)) r
  (zr (a r) (b r) * (a1 * er (a r) (b r) - b1 * ei (a r) (b r)) - zi (a r) (b r) * (a1 * ei (a r) (b r) + b1 * er (a r) (b r))).
Proof.
  intro B. assert (D1 := hr_der r B). assert (D2 := hi_der r B).
  unfold cr. set (f := fun r => hr (a r) (b r)) in *. set (g := fun r => hi (a r) (b r)) in *.
  apply (is_derive_ext (fun r => zr (a r) (b r) * f r - zi (a r) (b r) * g r)); [reflexivity|].
  assert (X1 : Derive (fun x : R => f x) r = _) by (apply is_derive_unique; exact D1). assert (X2 : Derive (fun x : R => g x) r = _) by (apply is_derive_unique; exact D2).
  unfold zr, zi, a, b. auto_derive; [repeat split; eexists; eassumption|]. rewrite X1, X2. unfold f, g. unfold a, b.
  set (A := a0 + a1 * r). set (Bb := b0 + b1 * r). unfold Rminus. match goal with |- ?u = ?v => change (@eq R u v) end. ring.
Qed.
Lemma ci_der (r : R) : 0 < b r -> is_derive (fun r => ci (a r) (b r)) r
  (zr (a r) (b r) * (a1 * ei (a r) (b r) + b1 * er (a r) (b r)) + zi (a r) (b r) * (a1 * er (a r) (b r) - b1 * ei (a r) (b r))).
Proof.
  intro B. assert (D1 := hr_der r B). assert (D2 := hi_der r B).
  unfold ci. set (f := fun r => hr (a r) (b r)) in *. set (g := fun r => hi (a r) (b r)) in *.
  apply (is_derive_ext (fun r => zr (a r) (b r) * g r + zi (a r) (b r) * f r)); [reflexivity|].
  assert (X1 : Derive (fun x : R => f x) r = _) by (apply is_derive_unique; exact D1). assert (X2 : Derive (fun x : R => g x) r = _) by (apply is_derive_unique; exact D2).
  unfold zr, zi, a, b. auto_derive; [repeat split; eexists; eassumption|]. rewrite X1, X2. unfold f, g. unfold a, b.
  set (A := a0 + a1 * r). set (Bb := b0 + b1 * r). unfold Rminus. match goal with |- ?u = ?v => change (@eq R u v) end. ring.
Qed.
End Line.

(** ** Bounds *)
Lemma kr_le a b t : 0 < b -> Rabs (kr a b t) <= gs t / b.
Proof.
  intro B. assert (N := nn_pos a b t B). destruct (gs_bounds t) as [G _]. unfold kr. rewrite Rabs_right by (apply Rle_ge, Rlt_le, Rdiv_lt_0_compat; [now apply Rmult_lt_0_compat|exact N]).
  unfold Rdiv. rewrite Rmult_assoc. apply Rmult_le_compat_l; [lra|]. apply Rmult_le_reg_r with (nn a b t); [exact N|]. rewrite Rmult_assoc, Rinv_l, Rmult_1_r by lra.
  apply Rmult_le_reg_l with b; [exact B|]. rewrite <- Rmult_assoc, Rinv_r, Rmult_1_l by lra. unfold nn. assert (0 <= (a - t) * (a - t)) by apply Rle_0_sqr. lra.
Qed.
Lemma ki_le a b t : 0 < b -> Rabs (ki a b t) <= gs t / b.
Proof.
  intro B. assert (N := nn_pos a b t B). destruct (gs_bounds t) as [G _]. unfold ki, Rdiv. rewrite !Rabs_mult, (Rabs_right (gs t)) by lra. rewrite (Rabs_right (/ nn a b t)) by (apply Rle_ge, Rlt_le, Rinv_0_lt_compat, N).
  rewrite Rmult_assoc. apply Rmult_le_compat_l; [lra|]. apply Rmult_le_reg_r with (nn a b t); [exact N|]. rewrite Rmult_assoc, Rinv_l, Rmult_1_r by lra.
  apply Rmult_le_reg_l with b; [exact B|]. rewrite <- Rmult_assoc, Rinv_r, Rmult_1_l by lra. unfold nn. set (u := a - t). assert (u * u = Rabs u * Rabs u) by (rewrite <- Rabs_mult; symmetry; apply Rabs_right, Rle_ge, Rle_0_sqr).
  assert (H2 := Rle_0_sqr (Rabs u - b)). unfold Rsqr in H2. assert (H3 := Rabs_pos u). nra.
Qed.
Definition del (S T : R) : R := gs T + gs S + Rabs (gi T - gi S - sqrt PI).
Lemma del_pos S T : 0 <= del S T.
Proof. unfold del. destruct (gs_bounds T), (gs_bounds S). generalize (Rabs_pos (gi T - gi S - sqrt PI)). lra. Qed.
Lemma PI_3 : 3 < PI.
Proof. generalize PI2_3_2. lra. Qed.
Lemma err_le S T a b m : 0 < m <= 1 -> m <= b -> Rabs (er S T a b) <= del S T / m /\ Rabs (ei S T a b) <= del S T / m.
Proof.
  intros M B. assert (B0 : 0 < b) by lra. assert (P := PI_3).
  assert (K1 : forall t, gs t / b <= gs t / m). { intro t. apply Rmult_le_compat_l; [destruct (gs_bounds t); lra|]. apply Rinv_le_contravar; lra. }
  assert (A1 := kr_le a b T B0). assert (A2 := kr_le a b S B0). assert (A3 := ki_le a b T B0). assert (A4 := ki_le a b S B0).
  assert (Y1 := K1 T). assert (Y2 := K1 S).
  assert (D : 0 <= Rabs (gi T - gi S - sqrt PI)) by apply Rabs_pos. set (d := Rabs (gi T - gi S - sqrt PI)) in *.
  assert (D1 : d <= d / m). { apply Rmult_le_reg_r with m; [lra|]. unfold Rdiv. rewrite Rmult_assoc, Rinv_l, Rmult_1_r by lra. nra. }
  assert (E : del S T / m = gs T / m + gs S / m + d / m) by (unfold del; fold d; field; lra).
  destruct (gs_bounds T) as [G1 _], (gs_bounds S) as [G2 _]. assert (Z1 : 0 < gs T / m) by (apply Rdiv_lt_0_compat; lra). assert (Z2 : 0 < gs S / m) by (apply Rdiv_lt_0_compat; lra).
  assert (SP := sqrtPI_pos). assert (SS : sqrt PI * sqrt PI = PI) by (apply sqrt_sqrt; lra).
  split.
  - unfold er, Rdiv. rewrite Rabs_mult, Rabs_Ropp, (Rabs_right (/ PI)) by (apply Rle_ge, Rlt_le, Rinv_0_lt_compat; lra).
    assert (Q := Rabs_triang (kr a b T) (- kr a b S)). rewrite Rabs_Ropp in Q. fold (kr a b T - kr a b S) in Q. fold (del S T / m). rewrite E.
    apply Rmult_le_reg_r with PI; [lra|]. rewrite Rmult_assoc, Rinv_l, Rmult_1_r by lra. nra.
  - unfold ei. replace (2 / sqrt PI) with (2 * sqrt PI / PI) by (assert (G : forall s p, 0 < s -> s * s = p -> 2 * s / p = 2 / s) by (intros s p H <-; field; lra); now apply G).
    replace ((- (ki a b T - ki a b S) + 2 * (gi T - gi S)) / PI - 2 * sqrt PI / PI) with ((- ki a b T + ki a b S + 2 * (gi T - gi S - sqrt PI)) * / PI) by (field; lra).
    rewrite Rabs_mult, (Rabs_right (/ PI)) by (apply Rle_ge, Rlt_le, Rinv_0_lt_compat; lra). rewrite E.
    assert (Q := Rabs_triang (- ki a b T + ki a b S) (2 * (gi T - gi S - sqrt PI))). assert (Q2 := Rabs_triang (- ki a b T) (ki a b S)). rewrite Rabs_Ropp in Q2. rewrite Rabs_mult, (Rabs_right 2) in Q by lra. fold d in Q.
    apply Rmult_le_reg_r with PI; [lra|]. rewrite Rmult_assoc, Rinv_l, Rmult_1_r by lra. nra.
Qed.
Lemma zr_le a b x : Rabs a <= Rabs x -> Rabs (zr a b) <= exp (x * x) /\ Rabs (zi a b) <= exp (x * x).
Proof.
  intro A. assert (Q : exp (a * a - b * b) <= exp (x * x)).
  { assert (a * a - b * b <= x * x). { assert (a * a <= x * x). { rewrite <- (Rabs_right (a * a)), <- (Rabs_right (x * x)), !Rabs_mult by (apply Rle_ge, Rle_0_sqr). apply Rmult_le_compat; auto using Rabs_pos. } assert (0 <= b * b) by apply Rle_0_sqr. lra. }
    destruct (Rle_lt_or_eq_dec _ _ H) as [L|L]; [left; now apply exp_increasing|rewrite L; lra]. }
  assert (X := exp_pos (a * a - b * b)). assert (C1 := COS_bound (2 * (a * b))). assert (S1 := SIN_bound (2 * (a * b))).
  unfold zr, zi. rewrite !Rabs_mult, !(Rabs_right (exp _)) by lra.
  assert (Rabs (cos (2 * (a * b))) <= 1) by (apply Rabs_le; lra). assert (Rabs (sin (2 * (a * b))) <= 1) by (apply Rabs_le; lra).
  assert (0 <= Rabs (cos (2 * (a * b)))) by apply Rabs_pos. assert (0 <= Rabs (sin (2 * (a * b)))) by apply Rabs_pos. split; nra.
Qed.
Lemma four_le u v w t z e k : Rabs u <= z -> Rabs v <= z -> Rabs w <= e -> Rabs t <= e -> forall p q, Rabs p + Rabs q <= k ->
  Rabs (u * (p * w - q * t) - v * (p * t + q * w)) <= 2 * (z * (k * e)) /\ Rabs (u * (p * t + q * w) + v * (p * w - q * t)) <= 2 * (z * (k * e)).
Proof.
  intros U V W T0 p q K. assert (U0 := Rabs_pos u). assert (V0 := Rabs_pos v). assert (W0 := Rabs_pos w). assert (T1 := Rabs_pos t). assert (P0 := Rabs_pos p). assert (Q0 := Rabs_pos q).
  assert (A : Rabs (p * w - q * t) <= k * e). { assert (X := Rabs_triang (p * w) (- (q * t))). rewrite Rabs_Ropp, !Rabs_mult in X. fold (p * w - q * t) in X. nra. }
  assert (B : Rabs (p * t + q * w) <= k * e). { assert (X := Rabs_triang (p * t) (q * w)). rewrite !Rabs_mult in X. nra. }
  assert (A0 := Rabs_pos (p * w - q * t)). assert (B0 := Rabs_pos (p * t + q * w)).
  assert (X1 := Rabs_triang (u * (p * w - q * t)) (- (v * (p * t + q * w)))). rewrite Rabs_Ropp, !Rabs_mult in X1.
  assert (X2 := Rabs_triang (u * (p * t + q * w)) (v * (p * w - q * t))). rewrite !Rabs_mult in X2. unfold Rminus at 1.
  split; [eapply Rle_trans; [exact X1|]|eapply Rle_trans; [exact X2|]]; replace (2 * (z * (k * e))) with (z * (k * e) + z * (k * e)) by ring; apply Rplus_le_compat; apply Rmult_le_compat; assumption.
Qed.
(** from iY to x + iy *)
Lemma move S T x y Y m : 0 < m <= 1 -> m <= y -> m <= Y ->
  Rabs (cr S T x y - cr S T 0 Y) <= 2 * (exp (x * x) * ((Rabs x + Rabs (y - Y)) * (del S T / m))) /\
  Rabs (ci S T x y - ci S T 0 Y) <= 2 * (exp (x * x) * ((Rabs x + Rabs (y - Y)) * (del S T / m))).
Proof.
  intros M My MY.
  assert (BP : forall r, 0 <= r <= 1 -> m <= Y + (y - Y) * r). { intros r R. nra. }
  assert (AP : forall r, 0 <= r <= 1 -> Rabs (0 + x * r) <= Rabs x). { intros r R. rewrite Rplus_0_l, Rabs_mult, (Rabs_right r) by lra. generalize (Rabs_pos x). nra. }
  assert (Bd := fun r (R : 0 <= r <= 1) => let E := err_le S T (0 + x * r) (Y + (y - Y) * r) m M (BP r R) in let Z := zr_le (0 + x * r) (Y + (y - Y) * r) x (AP r R) in
     four_le _ _ _ _ _ _ (Rabs x + Rabs (y - Y)) (proj1 Z) (proj2 Z) (proj1 E) (proj2 E) x (y - Y) (Rle_refl _)).
  split.
  - edestruct (MVT_gen (fun r => cr S T (0 + x * r) (Y + (y - Y) * r)) 0 1) as (c & Cc & Ec).
    + intros r R. rewrite Rmin_left, Rmax_right in R by lra. apply cr_der. specialize (BP r ltac:(lra)). lra.
    + intros r R. rewrite Rmin_left, Rmax_right in R by lra. apply derivable_continuous_pt. eexists. apply is_derive_Reals. apply cr_der. specialize (BP r ltac:(lra)). lra.
    + rewrite Rmin_left, Rmax_right in Cc by lra. replace (0 + x * 1) with x in Ec by ring. replace (0 + x * 0) with 0 in Ec by ring. replace (Y + (y - Y) * 1) with y in Ec by ring. replace (Y + (y - Y) * 0) with Y in Ec by ring.
      rewrite Ec, Rminus_0_r, Rmult_1_r. cbv beta. apply (Bd c Cc).
  - edestruct (MVT_gen (fun r => ci S T (0 + x * r) (Y + (y - Y) * r)) 0 1) as (c & Cc & Ec).
    + intros r R. rewrite Rmin_left, Rmax_right in R by lra. apply ci_der. specialize (BP r ltac:(lra)). lra.
    + intros r R. rewrite Rmin_left, Rmax_right in R by lra. apply derivable_continuous_pt. eexists. apply is_derive_Reals. apply ci_der. specialize (BP r ltac:(lra)). lra.
    + rewrite Rmin_left, Rmax_right in Cc by lra. replace (0 + x * 1) with x in Ec by ring. replace (0 + x * 0) with 0 in Ec by ring. replace (Y + (y - Y) * 1) with y in Ec by ring. replace (Y + (y - Y) * 0) with Y in Ec by ring.
      rewrite Ec, Rminus_0_r, Rmult_1_r. cbv beta. apply (Bd c Cc).
Qed.

(** far up *)
Lemma gi_range S T : S <= T -> 0 <= gi T - gi S <= sqrt PI.
Proof.
  intro L. destruct (gi_bound T), (gi_bound S). split; [|lra]. destruct (Rle_lt_or_eq_dec _ _ L) as [HH| -> ]; [generalize (gi_incr _ _ HH); lra|lra].
Qed.
Lemma U_le (k : R -> R) S T Y : S <= T -> 1 <= Y -> (forall t, continuous k t) -> (forall t, Rabs (k t) <= gs t / Y) -> Rabs (RInt k S T) <= sqrt PI.
Proof.
  intros L HY Cn B.
  assert (Q : forall t, Rabs (k t) <= gs t). { intro t. eapply Rle_trans; [apply B|]. destruct (gs_bounds t). apply Rmult_le_reg_r with Y; [lra|]. unfold Rdiv. rewrite Rmult_assoc, Rinv_l, Rmult_1_r by lra. nra. }
  assert (G : RInt gs S T = gi T - gi S). { apply is_RInt_unique. apply (is_RInt_derive (V := R_CompleteNormedModule) gi gs); intros t _; [apply gi_derive|apply gs_cont]. }
  assert (A : Rabs (RInt k S T) <= RInt gs S T).
  { eapply Rle_trans; [apply abs_RInt_le; [exact L|now apply cint]|].
    apply RInt_le; [exact L| |apply gs_int|intros t _; apply Q]. apply cint. intro t. apply (continuous_comp k Rabs); [apply Cn|apply continuous_Rabs]. }
  rewrite G in A. destruct (gi_range S T L). lra.
Qed.
Lemma wi_imag b : wi 0 b = 0.
Proof. assert (H := proj2 (w_even 0 b)). rewrite Ropp_0 in H. lra. Qed.
Lemma far S T Y : S <= T -> 1 <= Y -> Rabs (cr S T 0 Y) <= gs Y + (1 - 2 / sqrt PI * gi Y) /\ Rabs (ci S T 0 Y) <= gs Y.
Proof.
  intros L HY. unfold cr, ci, zr, zi. rewrite !Rmult_0_l, Rmult_0_r, cos_0, sin_0. replace (exp (0 - Y * Y)) with (gs Y) by (unfold gs; f_equal; ring).
  rewrite !Rmult_0_r, !Rmult_1_r, !Rmult_0_l, Rminus_0_r, Rplus_0_r. unfold hr, hi. rewrite wi_imag, wr_imag.
  assert (A := U_le (kr 0 Y) S T Y L HY (fun t => kr_cont 0 Y t ltac:(lra)) (fun t => kr_le 0 Y t ltac:(lra))).
  assert (B := U_le (ki 0 Y) S T Y L HY (fun t => ki_cont 0 Y t ltac:(lra)) (fun t => ki_le 0 Y t ltac:(lra))).
  fold (Ur S T 0 Y) in A. fold (Ui S T 0 Y) in B. destruct (gs_bounds Y) as [G1 G2]. assert (SP := sqrtPI_pos). assert (P := PI_3). assert (SS : sqrt PI * sqrt PI = PI) by (apply sqrt_sqrt; lra).
  assert (SL : sqrt PI <= PI) by nra.
  assert (H : forall u, Rabs u <= sqrt PI -> Rabs (u / PI) <= 1). { intros u U. unfold Rdiv. rewrite Rabs_mult, (Rabs_right (/ PI)) by (apply Rle_ge, Rlt_le, Rinv_0_lt_compat; lra). apply Rmult_le_reg_r with PI; [lra|]. rewrite Rmult_assoc, Rinv_l by lra. lra. }
  assert (E : gs Y * exp (Y * Y) = 1). { unfold gs. rewrite <- exp_plus, <- exp_0. f_equal. ring. }
  assert (W : 0 < 1 - 2 / sqrt PI * gi Y). { assert (W := wr_imag_pos Y). rewrite wr_imag in W. assert (X := exp_pos (Y * Y)). nra. }
  split.
  - replace (gs Y * (Ur S T 0 Y / PI - exp (Y * Y) * (1 - 2 / sqrt PI * gi Y))) with (gs Y * (Ur S T 0 Y / PI) - (gs Y * exp (Y * Y)) * (1 - 2 / sqrt PI * gi Y)) by ring.
    rewrite E, Rmult_1_l. unfold Rminus at 1. eapply Rle_trans; [apply Rabs_triang|]. rewrite Rabs_Ropp, (Rabs_right (1 - _)) by lra. rewrite Rabs_mult, (Rabs_right (gs Y)) by lra.
    specialize (H _ A). generalize (Rabs_pos (Ur S T 0 Y / PI)). nra.
  - rewrite Rminus_0_r, Rabs_mult, (Rabs_right (gs Y)) by lra. specialize (H _ B). generalize (Rabs_pos (Ui S T 0 Y / PI)). nra.
Qed.
Lemma gs_even t : gs (- t) = gs t.
Proof. unfold gs. f_equal. ring. Qed.
Lemma tail eta : 0 < eta -> exists M, 1 <= M /\ forall t, M <= t -> gs t < eta /\ sqrt PI / 2 - eta < gi t.
Proof.
  intro E. assert (SP := sqrtPI_pos).
  assert (X : exists x, 0 < x /\ sqrt PI / 2 - eta < gi x).
  { destruct (Rle_lt_dec 0 (sqrt PI / 2 - eta)) as [H|H]; [apply gi_large; lra|]. exists 1. split; [lra|]. generalize (gi_nonneg 1 ltac:(lra)). lra. }
  destruct X as (x & X0 & X1). exists (Rmax 1 (Rmax x (/ eta))). split; [apply Rmax_l|]. intros t H.
  assert (H1 := Rmax_l 1 (Rmax x (/ eta))). assert (H2 := Rmax_r 1 (Rmax x (/ eta))). assert (H3 := Rmax_l x (/ eta)). assert (H4 := Rmax_r x (/ eta)). split.
  - assert (I : 0 < / eta) by (now apply Rinv_0_lt_compat). assert (G : gs t < / t).
    { unfold gs. rewrite exp_Ropp. apply Rinv_lt_contravar; [apply Rmult_lt_0_compat; [lra|apply exp_pos]|]. assert (1 + t * t < exp (t * t)) by (apply exp_ineq1; nra). nra. }
    assert (/ t <= / / eta) by (apply Rinv_le_contravar; lra). rewrite Rinv_inv in H0. lra.
  - destruct (Rle_lt_or_eq_dec x t ltac:(lra)) as [L| <- ]; [generalize (gi_incr _ _ L); lra|lra].
Qed.
Lemma del_small eta : 0 < eta -> exists M, 1 <= M /\ forall S T, S < - M -> M < T -> del S T < eta.
Proof.
  intro E. destruct (tail (eta / 4) ltac:(lra)) as (M & M1 & H). exists M. split; [exact M1|]. intros S T HS HT.
  destruct (H T ltac:(lra)) as [A1 A2]. destruct (H (- S) ltac:(lra)) as [B1 B2]. rewrite gs_even in B1. rewrite gi_opp in B2. destruct (gi_range S T ltac:(lra)) as [_ R].
  unfold del. rewrite Rabs_left1 by lra. lra.
Qed.

(** ** The convolution *)
Theorem convolution x y : 0 < y -> whole (fun t => gs t * (y / ((x - t) * (x - t) + y * y)) / PI) (wr x y).
Proof.
  intro Y0. apply whole_intro. intros eps E.
  set (D := exp (x * x - y * y)). assert (D0 : 0 < D) by apply exp_pos. set (m := Rmin y 1). assert (Hm : 0 < m <= 1 /\ m <= y). { unfold m. split; [split; [apply Rmin_glb_lt; lra|apply Rmin_r]|apply Rmin_l]. } destruct Hm as [Hm My].
  assert (SP := sqrtPI_pos).
  set (e1 := eps * D / 16). assert (E1 : 0 < e1) by (unfold e1; apply Rdiv_lt_0_compat; [now apply Rmult_lt_0_compat|lra]).
  set (e2 := e1 * Rmin 1 (sqrt PI)). assert (E2 : 0 < e2) by (apply Rmult_lt_0_compat; [exact E1|apply Rmin_glb_lt; lra]).
  destruct (tail e2 E2) as (Y & Y1 & HY). destruct (HY Y ltac:(lra)) as [G1 G2].
  assert (Q1 : gs Y < e1). { eapply Rlt_le_trans; [exact G1|]. unfold e2. generalize (Rmin_l 1 (sqrt PI)). nra. }
  assert (Q2 : 1 - 2 / sqrt PI * gi Y < 2 * e1).
  { assert (e2 <= e1 * sqrt PI) by (unfold e2; generalize (Rmin_r 1 (sqrt PI)); nra).
    apply Rmult_lt_reg_r with (sqrt PI); [exact SP|]. replace ((1 - 2 / sqrt PI * gi Y) * sqrt PI) with (sqrt PI - 2 * gi Y) by (field; lra). lra. }
  set (K := exp (x * x) * ((Rabs x + Rabs (y - Y)) / m)). assert (K0 : 0 <= K). { unfold K. apply Rmult_le_pos; [left; apply exp_pos|]. apply Rmult_le_pos; [generalize (Rabs_pos x) (Rabs_pos (y - Y)); lra|left; apply Rinv_0_lt_compat; lra]. }
  destruct (del_small (e1 / (K + 1)) ltac:(apply Rdiv_lt_0_compat; lra)) as (M & M1 & HM).
  exists M. intros S T HS HT. assert (L : S <= T) by lra. specialize (HM S T HS HT). assert (DP := del_pos S T).
  assert (KD : K * del S T < e1). { apply Rle_lt_trans with ((K + 1) * del S T); [nra|]. replace e1 with ((K + 1) * (e1 / (K + 1))) by (field; lra). apply Rmult_lt_compat_l; lra. }
  destruct (move S T x y Y m Hm My ltac:(lra)) as [V1 V2]. destruct (far S T Y L Y1) as [F1 F2].
  replace (exp (x * x) * ((Rabs x + Rabs (y - Y)) * (del S T / m))) with (K * del S T) in V1, V2 by (unfold K; field; lra).
  assert (W1 : Rabs (cr S T x y) < 6 * e1). { assert (X := Rabs_triang (cr S T x y - cr S T 0 Y) (cr S T 0 Y)). replace (cr S T x y - cr S T 0 Y + cr S T 0 Y) with (cr S T x y) in X by ring. lra. }
  assert (W2 : Rabs (ci S T x y) < 6 * e1). { assert (X := Rabs_triang (ci S T x y - ci S T 0 Y) (ci S T 0 Y)). replace (ci S T x y - ci S T 0 Y + ci S T 0 Y) with (ci S T x y) in X by ring. lra. }
  exists (Ur S T x y / PI). split.
  - assert (P := PI_3). apply (is_RInt_ext (V := R_NormedModule) (fun t => scal (/ PI) (kr x y t))).
    + intros t _. unfold scal; cbn; unfold mult; cbn. unfold kr, nn. assert (N := nn_pos x y t Y0). unfold nn in N. field. split; lra.
    + replace (Ur S T x y / PI) with (scal (/ PI) (Ur S T x y)) by (unfold scal; cbn; unfold mult; cbn; unfold Rdiv; apply Rmult_comm).
      apply (is_RInt_scal (V := R_NormedModule)). apply (RInt_correct (V := R_CompleteNormedModule)). apply cint. intro t. now apply kr_cont.
  - fold (hr S T x y). set (c := cos (2 * (x * y))). set (s := sin (2 * (x * y))).
    assert (CS : c * c + s * s = 1) by (generalize (sin2_cos2 (2 * (x * y))); unfold Rsqr, c, s; lra).
    assert (H : D * hr S T x y = c * cr S T x y + s * ci S T x y). { unfold cr, ci, zr, zi. fold D c s. transitivity (D * hr S T x y * (c * c + s * s)); [rewrite CS; ring|ring]. }
    assert (Cb : Rabs c <= 1) by (apply Rabs_le; unfold c; generalize (COS_bound (2 * (x * y))); lra). assert (Sb : Rabs s <= 1) by (apply Rabs_le; unfold s; generalize (SIN_bound (2 * (x * y))); lra).
    assert (B : D * Rabs (hr S T x y) < eps * D).
    { rewrite <- (Rabs_right D) at 1 by lra. rewrite <- Rabs_mult, H. eapply Rle_lt_trans; [apply Rabs_triang|]. rewrite !Rabs_mult.
      generalize (Rabs_pos c) (Rabs_pos s) (Rabs_pos (cr S T x y)) (Rabs_pos (ci S T x y)). unfold e1 in W1, W2. assert (0 < eps * D) by nra. nra. }
    nra.
Qed.
