(** Theorems C27 (linear fit), C28 (QR fit), C30 (kept parameters). *)
From Coq Require Import List Arith Reals Bool Lia Lra Psatz.
From Verif Require Import L_List L_Sum M_Fitter S_Fitter P_Fitter P_Fitter2.
Import ListNotations.
Local Open Scope R_scope.

Lemma made_wfi m s fi : made m s -> f_index s = Some fi -> wfi (m_np m) fi.
Proof. unfold made. intros H E. rewrite E in H. destruct H as [k ->]. eexists. reflexivity. Qed.

Lemma kept_rows m weights acc keep s : made m s -> dict keep ->
  (forall i j, (i < f_nrow s)%nat -> (j < m_np m)%nat -> ~ free keep s j -> f_ndf s i j = 0) ->
  forall s1 fi w, fitprolog m weights acc keep s = Ret (fi, w, s1) -> forall i, (i < f_nrow s)%nat -> sum (m_np m) (fun j => f_ndf s i j * place fi zeros 0 (f_par s1) j) = 0.
Proof.
  intros MD DK H s1 fi w EP i Hi. destruct (prolog_spec _ _ _ _ _ _ _ _ MD DK EP) as (WF & FI & _).
  apply sum_zero. intros j Hj. destruct (in_dec Nat.eq_dec j fi) as [Hin|Ho].
  - destruct (In_nth _ _ 0%nat Hin) as (k & Hk & <-). rewrite place_in by (eauto using wfi_nodup). unfold zeros. ring.
  - rewrite (H i j Hi Hj); [ring|]. intro F. apply Ho, FI; assumption.
Qed.

Lemma goal_wgt m s y weights acc p : fair m weights acc -> goal m s y (fitWgts weights acc) p = goal m s y (wgt_of weights acc) p.
Proof.
  intros [_ F]. unfold goal. f_equal. apply sum_ext. intros i Hi. rewrite fitWgts_spec; [reflexivity|]. destruct acc as [a|]; [|exact I]. pose proof (F a eq_refl i Hi). lra.
Qed.

(** C27.  The parameters found minimise the weighted squares (of the data and of the "normalize" rows) among
    all parameters that agree in the kept ones; when the call ends in the ValueError of a perfect fit, the
    model has got them all the same. *)
Theorem C27_optimum solve m off D y weights acc keep s r s' : solver solve -> linear m off D -> made m s -> dict keep -> fair m weights acc ->
  (0 < m_np m)%nat -> (forall i, (i < f_nrow s)%nat -> 0 <= f_nwgt s i) ->
  (forall i j, (i < f_nrow s)%nat -> (j < m_np m)%nat -> ~ free keep s j -> f_ndf s i j = 0) ->
  fit solve m y weights acc keep s = (r, s') -> (exists p, r = Ret p) \/ r = Err ValueError ->
  (forall p, r = Ret p -> p = f_par s') /\ f_chi s' = Some (sum (m_n m) (fun i => wgt_of weights acc i * (y i - m_res m (f_par s') i) ^ 2)) /\
  forall p', (forall j, (j < m_np m)%nat -> ~ free keep s j -> p' j = f_par s' j) ->
    goal m s y (wgt_of weights acc) (f_par s') <= goal m s y (wgt_of weights acc) p'.
Proof.
  intros SV L MD DK FR NP NW KR E OK.
  destruct (fit_optimum solve m off D y weights acc keep s r s' SV L MD DK FR NP NW (kept_rows _ _ _ _ _ MD DK KR) E OK)
    as (fi & s1 & w & q & EP & EF & EC & ER & _ & _ & _ & G).
  destruct (prolog_spec _ _ _ _ _ _ _ _ MD DK EP) as (WF & FI & -> & _).
  split; [exact ER|]. split.
  - rewrite EC. f_equal. unfold chisq. apply sum_ext. intros i Hi. rewrite fitWgts_spec; [ring|]. destruct FR as [_ F]. destruct acc as [a|]; [|exact I]. pose proof (F a eq_refl i Hi). lra.
  - intros p' K. rewrite <- !goal_wgt by assumption. rewrite (G p').
    + match goal with |- ?a <= ?a + ?b => assert (0 <= b); [|lra] end. apply sum_nonneg. intros i Hi. apply Rmult_le_pos; [|apply pow2_ge_0].
      unfold append. destruct (Nat.ltb_spec i (m_n m)); [apply (fair_nonneg m); assumption|]. apply NW. unfold rows in Hi. lia.
    + intros j Hj Ho. apply K; [assumption|]. intro F. apply Ho, FI; assumption.
Qed.
Print Assumptions C27_optimum.

Lemma sum_nonneg_zero n f : (forall i, (i < n)%nat -> 0 <= f i) -> sum n f = 0 -> forall i, (i < n)%nat -> f i = 0.
Proof.
  induction n as [|n IH]; intros P E i Hi; [lia|]. cbn in E. pose proof (sum_nonneg n f ltac:(auto)). pose proof (P n ltac:(lia)).
  destruct (Nat.eq_dec i n) as [->|]; [lra|]. apply IH; auto; [lra|lia].
Qed.

(** It is the only one, when the weights are positive and the design of the free parameters has full rank. *)
Theorem C27_unique solve m off D y weights acc keep s r s' : solver solve -> linear m off D -> made m s -> dict keep -> fair m weights acc ->
  (0 < m_np m)%nat -> f_nrow s = 0%nat -> (forall i, (i < m_n m)%nat -> 0 < wgt_of weights acc i) ->
  (forall d : vec, (forall j, (j < m_np m)%nat -> ~ free keep s j -> d j = 0) -> (forall i, (i < m_n m)%nat -> sum (m_np m) (fun j => D i j * d j) = 0) -> forall j, (j < m_np m)%nat -> d j = 0) ->
  fit solve m y weights acc keep s = (r, s') -> (exists p, r = Ret p) \/ r = Err ValueError ->
  forall p', (forall j, (j < m_np m)%nat -> ~ free keep s j -> p' j = f_par s' j) ->
    goal m s y (wgt_of weights acc) p' = goal m s y (wgt_of weights acc) (f_par s') -> forall j, (j < m_np m)%nat -> p' j = f_par s' j.
Proof.
  intros SV L MD DK FR NP NR WP RK E OK p' K GE j Hj.
  destruct (fit_optimum solve m off D y weights acc keep s r s' SV L MD DK FR NP ltac:(intros; lia) ltac:(intros; lia) E OK)
    as (fi & s1 & w & q & EP & EF & EC & ER & _ & _ & _ & G).
  destruct (prolog_spec _ _ _ _ _ _ _ _ MD DK EP) as (WF & FI & -> & _).
  rewrite <- !goal_wgt in GE by assumption. rewrite (G p') in GE by (intros j' Hj' Ho; apply K; [assumption|]; intro F; apply Ho, FI; assumption).
  match type of GE with ?a + ?b = ?a => assert (Z : b = 0) by lra end.
  assert (AZ : forall i, (i < m_n m)%nat -> sum (length fi) (fun k => getDesign m s (f_par s1) fi i k * (p' (nth k fi 0%nat) - f_par s' (nth k fi 0%nat))) = 0).
  { intros i Hi. assert (Hr : (i < rows m s)%nat) by (unfold rows; lia).
    match type of Z with sum ?a ?f = 0 => assert (PO : forall i', (i' < a)%nat -> 0 <= f i') end.
    { intros i' Hi'. apply Rmult_le_pos; [|apply pow2_ge_0]. unfold append. destruct (Nat.ltb_spec i' (m_n m)); [apply (fair_nonneg m); assumption|unfold rows in Hi'; lia]. }
    pose proof (sum_nonneg_zero _ _ PO Z i Hr) as Q.
    cbn beta in Q. unfold append in Q. apply Nat.ltb_lt in Hi as Hb. rewrite Hb in Q. apply Rmult_integral in Q. destruct Q as [Q|Q].
    - pose proof (WP i Hi) as W. rewrite <- fitWgts_spec in W; [lra|]. destruct FR as [_ F]. destruct acc as [a|]; [|exact I]. pose proof (F a eq_refl i Hi). lra.
    - apply (Rsqr_0_uniq). unfold Rsqr. lra. }
  assert (DZ : p' j - f_par s' j = 0); [|lra].
  refine (RK (fun j => p' j - f_par s' j) _ _ j Hj).
  - intros j' Hj' Ho. rewrite (K j' Hj' Ho). ring.
  - intros i Hi. rewrite <- (AZ i Hi).
    set (d := fun j => p' j - f_par s' j).
    assert (DP : forall j, (j < m_np m)%nat -> d j = place fi (fun k => d (nth k fi 0%nat)) 0 zeros j).
    { intros j' Hj'. destruct (in_dec Nat.eq_dec j' fi) as [Hin|Hout].
      - destruct (In_nth _ _ 0%nat Hin) as (k & Hk & <-). rewrite place_in by (eauto using wfi_nodup). reflexivity.
      - rewrite place_out by exact Hout. unfold d, zeros. rewrite K; [ring|assumption|]. intro F. apply Hout, FI; assumption. }
    rewrite (sum_ext (m_np m) _ (fun j => D i j * place fi (fun k => d (nth k fi 0%nat)) 0 zeros j)) by (intros j' Hj'; rewrite <- (DP j' Hj'); reflexivity).
    rewrite (place_sum (m_np m) (fun j => D i j) fi _ 0 zeros (wfi_nodup _ _ WF) (wfi_range _ _ WF)).
    rewrite (sum_zero (m_np m)).
    + rewrite Rplus_0_l. apply sum_ext. intros k Hk. unfold getDesign, append. apply Nat.ltb_lt in Hi as Hb. rewrite Hb.
      destruct (L (f_par s1) i Hi) as [_ ->]; [reflexivity|]. exact (proj1 (Forall_forall _ _) (wfi_range _ _ WF) _ (nth_In _ _ Hk)).
    + intros j' Hj'. destruct (in_dec Nat.eq_dec j' fi) as [Hin|Hout].
      * destruct (In_nth _ _ 0%nat Hin) as (k & Hk & <-). rewrite place_in by (eauto using wfi_nodup). unfold zeros. ring.
      * rewrite place_out by exact Hout. unfold zeros. ring.
Qed.
Print Assumptions C27_unique.

(** A constant fitted to 0 and 3 with weights 1 and 2. *)
Definition cmod (n : nat) : pmodel := mkM n 1 (fun p _ => p 0%nat) (fun _ _ _ => 1).
Definition y03 : vec := fun i => if (i =? 0)%nat then 0 else 3.
Definition w12 : vec := fun i => if (i =? 0)%nat then 1 else 2.
Definition obj (pars : vec) : fst8 := mkF pars None 0 None 2 0 (fun _ _ => 0) zeros zeros None.
Lemma cmod_linear n : linear (cmod n) zeros (fun _ _ => 1).
Proof. intros p i Hi. split; [cbn; unfold zeros; lra|reflexivity]. Qed.

Example C27_example : exists p s', fit solve1 (cmod 2) y03 (Some w12) None None (obj zeros) = (Ret p, s') /\ p 0%nat = 2.
Proof.
  unfold fit. cbn [fitprolog f_index obj set_sumw m_np cmod Nat.eqb set_npfit]. unfold solve1. cbn [length seq Nat.eqb].
  assert (H : getHessian (cmod 2) (set_npfit (set_sumw (obj zeros) (sum (m_n (cmod 2)) w12)) 1) zeros (fitWgts (Some w12) None) [0%nat] 0%nat 0%nat = 3).
  { unfold getHessian, rows, getDesign, append, fitWgts, w12. cbn. field. }
  change (f_par (set_npfit (set_sumw (obj zeros) (sum (m_n (cmod 2)) w12)) 1)) with zeros. rewrite H. destruct (Req_EM_T 3 0); [lra|].
  unfold chiSquared. cbn [insertParameters length m_np cmod Nat.eqb].
  match goal with |- context [Rle_dec ?a 0] => assert (C : a = 6) end.
  { unfold chisq, getVector, rows, getDesign, append, fitWgts, w12, y03. cbn. unfold zeros. field. }
  rewrite C. destruct (Rle_dec 6 0); [lra|]. do 2 eexists. split; [reflexivity|].
  unfold getVector, rows, getDesign, append, fitWgts, w12, y03. cbn. unfold zeros. field.
Qed.

(** A model without parameters: the weights do not count in chisq. *)
Theorem C27_null_refuted : exists m y w s s', m_np m = 0%nat /\ fit solve1 m y (Some w) None None s = (Ret zeros, s') /\
  made m s /\ f_chi s' <> Some (sum (m_n m) (fun i => w i * (y i - m_res m (f_par s') i) ^ 2)).
Proof.
  exists (mkM 1 0 (fun _ _ => 0) (fun _ _ _ => 0)), ones, (fun _ => 4), (obj zeros).
  unfold fit, fitprolog. cbn [f_index obj set_sumw m_np Nat.eqb]. unfold chiSquared.
  match goal with |- context [Rle_dec ?a 0] => assert (C : a = 1) by (unfold chisq, ones; cbn; lra) end. rewrite C.
  destruct (Rle_dec 1 0); [lra|]. eexists. split; [reflexivity|]. split; [reflexivity|]. split; [exact I|]. cbn. unfold ones.
  intro H. injection H. lra.
Qed.
Print Assumptions C27_null_refuted.

(** A kept parameter in a "normalize" row is forgotten: result(p) = p0, keep {1:1}, p0 + p1 = 0 as extra measurement. *)
Definition mod2 : pmodel := mkM 1 2 (fun p _ => p 0%nat) (fun _ _ j => if (j =? 0)%nat then 1 else 0).
Theorem C27_normalize_refuted : exists s y keep p p' s', made mod2 s /\ dict (Some keep) /\
  linear mod2 zeros (fun _ j => if (j =? 0)%nat then 1 else 0) /\ fit solve1 mod2 y None None (Some keep) s = (Ret p, s') /\
  (forall j, ~ free (Some keep) s j -> p' j = p j) /\ goal mod2 s y ones p' < goal mod2 s y ones p.
Proof.
  exists (normalize ones 0 1 (obj zeros)), ones, [(1%nat, 1)].
  set (s := normalize ones 0 1 (obj zeros)).
  assert (LN : linear mod2 zeros (fun _ j => if (j =? 0)%nat then 1 else 0)) by (intros p i Hi; split; [cbn; unfold zeros; lra|reflexivity]).
  unfold fit. cbn [fitprolog keepFixed keys map fst forallb m_np mod2 Nat.ltb Nat.leb andb]. cbn [seq filter existsb Nat.eqb orb negb length]. unfold solve1. cbn [Nat.eqb].
  match goal with |- context [Req_EM_T ?a 0] => assert (H : a = 2) end.
  { unfold getHessian, rows, getDesign, append, fitWgts, ones. cbn. unfold ones. field. }
  rewrite H. destruct (Req_EM_T 2 0); [lra|].
  unfold chiSquared. cbn [insertParameters length Nat.eqb place].
  match goal with |- context [Rle_dec ?a 0] => assert (C : a = 1 / 4) end.
  { unfold chisq, getVector, rows, getDesign, append, fitWgts, ones. cbn. unfold ones, zeros. field. }
  rewrite C. destruct (Rle_dec (1 / 4) 0); [lra|]. eexists.
  exists (fun j => if (j =? 0)%nat then 0 else if (j =? 1)%nat then 1 else 0). eexists. split; [exact I|]. split; [cbn; repeat constructor; cbn; tauto|]. split; [exact LN|]. split; [reflexivity|]. split.
  - intros j Hj. cbn in Hj. assert (j = 1%nat) as -> by lia. cbn. reflexivity.
  - unfold goal, getVector, rows, getDesign, append, fitWgts, ones. cbn. unfold ones, zeros. lra.
Qed.
Print Assumptions C27_normalize_refuted.
