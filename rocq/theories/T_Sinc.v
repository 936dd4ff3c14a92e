(** C33: the model of SincModel.py:32-98, a KernelModel with the kernel Sinc. *)
From Coquelicot Require Import Coquelicot.
From Coq Require Import Reals Lra Lia List ZArith.
From Verif Require Import M_Elem M_Kernel.
Import ListNotations.
Local Open Scope R_scope.

Lemma sinc_value : forall t, t <> 0 -> k_result sinc t = sin (t * PI) / (t * PI).
Proof. intros t H. cbn. unfold where_. destruct (Req_EM_T t 0); [contradiction|reflexivity]. Qed.
(** The zeros are the whole numbers except 0; between -1 and 1 it is positive. *)
Theorem C33_sinc_zeros : forall t, k_result sinc t = 0 <-> t <> 0 /\ exists k, t = IZR k.
Proof.
  intros t. assert (P := PI_RGT_0). destruct (Req_dec t 0) as [->|N].
  - split; [|intros [H _]; contradiction]. cbn. unfold where_. destruct (Req_EM_T 0 0); [lra|contradiction].
  - rewrite (sinc_value t N). assert (M : t * PI <> 0) by (apply Rmult_integral_contrapositive_currified; lra). split.
    + intros H. split; [exact N|]. assert (S0 : sin (t * PI) = 0) by (apply Rmult_integral in H; destruct H as [H|H]; [exact H|exfalso; exact (Rinv_neq_0_compat _ M H)]).
      destruct (sin_eq_0_0 _ S0) as [k Hk]. exists k. apply (Rmult_eq_reg_r PI); lra.
    + intros [_ [k ->]]. rewrite (sin_eq_0_1 (IZR k * PI)); [unfold Rdiv; apply Rmult_0_l|exists k; reflexivity].
Qed.
Theorem C33_sinc_positive : forall t, -1 < t < 1 -> 0 < k_result sinc t.
Proof.
  assert (P := PI_RGT_0). assert (G : forall t, 0 < t < 1 -> 0 < sin (t * PI) / (t * PI)).
  { intros t H. apply Rdiv_lt_0_compat; [apply sin_gt_0; nra|nra]. }
  intros t H. destruct (Req_dec t 0) as [->|N].
  - cbn. unfold where_. destruct (Req_EM_T 0 0); [lra|contradiction].
  - rewrite (sinc_value t N). destruct (Rlt_dec 0 t); [apply G; lra|].
    replace (sin (t * PI) / (t * PI)) with (sin ((- t) * PI) / ((- t) * PI)); [apply G; lra|].
    replace (- t * PI) with (- (t * PI)) by ring. rewrite sin_neg. field. split; lra.
Qed.
(** SincModel: a peak with its first zeros at one width from the centre. *)
Theorem C33_sinc_model : forall a c w x, a <> 0 -> 0 < w -> let f x := el_f (kernelmodel sinc) x [a; c; w] in
  (f x = 0 <-> exists k, k <> 0%Z /\ x = c + IZR k * w) /\ (Rabs (x - c) < w -> 0 < f x / a) /\ f c = a.
Proof.
  intros a c w x Ha Hw f. unfold f. cbn [kernelmodel el_f nth]. split; [|split].
  - assert (E : a * k_result sinc ((x - c) / w) = 0 <-> k_result sinc ((x - c) / w) = 0).
    { split; intros H; [apply Rmult_integral in H; destruct H; [contradiction|assumption]|rewrite H; ring]. }
    rewrite E, C33_sinc_zeros. split.
    + intros [N [k H]]. exists k. split; [intros ->; apply N; exact H|]. rewrite <- H. field. lra.
    + intros [k [N ->]]. replace ((c + IZR k * w - c) / w) with (IZR k) by (field; lra). split; [apply (not_0_IZR k N)|exists k; reflexivity].
  - intros H. replace (a * k_result sinc ((x - c) / w) / a) with (k_result sinc ((x - c) / w)) by (field; exact Ha).
    apply C33_sinc_positive. apply Rabs_def2 in H. split; [apply Rlt_div_r; lra|apply Rlt_div_l; lra].
  - replace ((c - c) / w) with 0 by (field; lra). cbn. unfold where_. destruct (Req_EM_T 0 0); [ring|contradiction].
Qed.
(** The documented formula, p_0 sin( t ) / t with t = ( x - p_1 ) / p_2, is not what is calculated: there is a factor pi in t; the width is
    the distance between the first zeros divided by 2, not by 2 pi. *)
Theorem C33_sinc_formula_refuted : exists a c w x, 0 < w /\ x <> c /\
  el_f (kernelmodel sinc) x [a; c; w] <> a * (sin ((x - c) / w) / ((x - c) / w)).
Proof.
  exists 1, 0, 1, 1. split; [lra|]. split; [lra|]. intros H.
  assert (Z0 : el_f (kernelmodel sinc) 1 [1; 0; 1] = 0) by (apply (proj1 (C33_sinc_model 1 0 1 1 ltac:(lra) ltac:(lra))); exists 1%Z; split; [discriminate|ring]).
  rewrite Z0 in H. replace ((1 - 0) / 1) with 1 in H by field. assert (0 < sin 1); [|lra].
  assert (P := PI2_1). apply sin_gt_0; lra.
Qed.
Theorem C33_sinc_formula : forall a c w x, 0 < w -> x <> c ->
  let t := PI * ((x - c) / w) in el_f (kernelmodel sinc) x [a; c; w] = a * (sin t / t).
Proof.
  intros a c w x Hw Hx t. cbn [kernelmodel el_f nth]. rewrite sinc_value; [unfold t; rewrite (Rmult_comm PI); reflexivity|].
  intros H. apply Rmult_integral in H. destruct H as [H|H]; [lra|]. apply (Rinv_neq_0_compat w); [lra|exact H].
Qed.
Example C33_sinc_ex : el_f (kernelmodel sinc) 5 [2; 1; 2] = 0 /\ el_f (kernelmodel sinc) 1 [2; 1; 2] = 2.
Proof.
  split; [apply (proj1 (C33_sinc_model 2 1 2 5 ltac:(lra) ltac:(lra))); exists 2%Z; split; [discriminate|ring]|].
  apply (proj2 (proj2 (C33_sinc_model 2 1 2 1 ltac:(lra) ltac:(lra)))).
Qed.

Print Assumptions C33_sinc_model.
Print Assumptions C33_sinc_formula.
