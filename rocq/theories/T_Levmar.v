(** Theorems C29 (and C30): LevenbergMarquardtFitter. *)
From Coq Require Import List Arith Reals Bool Lia Lra Psatz Sorting.Sorted.
From Verif Require Import L_List L_Sum M_Fitter S_Fitter P_Fitter P_Fitter2 T_Fitter M_Levmar.
Import ListNotations.
Local Open Scope R_scope.

Section Lm.
  Context (solve : nat -> mat -> vec -> option vec) (m : pmodel) (f : fst8) (lims : nat -> option R * option R)
          (y wgt : vec) (fi : list nat) (maxiter : nat) (tolerance : R).

  Definition inlims (k : nat) (x : R) : Prop := (forall lo, fst (lims k) = Some lo -> lo <= x) /\ (forall hi, snd (lims k) = Some hi -> x <= hi).
  Definition okl : Prop := forall k lo hi, lims k = (Some lo, Some hi) -> lo <= hi.

  Lemma clip_in k x : okl -> inlims k (clip lims k x).
  Proof.
    intro O. unfold inlims, clip. destruct (lims k) as [[lo|] [hi|]] eqn:E; cbn; split; intros z Hz; inversion Hz; subst;
      repeat (match goal with |- context [Rlt_dec ?a ?b] => destruct (Rlt_dec a b) end); try lra; pose proof (O _ _ _ E); lra.
  Qed.

  (** one successful trialfit *)
  Lemma turns_ok : forall fuel hes v fp params s a c s', wfi (m_np m) fi -> (params < l_free s)%nat -> (l_par s < l_free s)%nat ->
    turns solve m f lims y wgt fi maxiter fuel hes v fp params s = (Ret (a, c), s') ->
    c = chiExtra m f y wgt (l_heap s' a) /\ c <= l_chi s /\ l_chi s' = l_chi s /\ (a < l_free s')%nat /\ l_par s' = l_par s /\ (l_free s <= l_free s')%nat /\
    (l_iter s < l_iter s' <= maxiter)%nat /\ (forall j, (j < m_np m)%nat -> ~ In j fi -> l_heap s' a j = l_heap s params j) /\
    (okl -> forall j, (j < m_np m)%nat -> In j fi -> inlims j (l_heap s' a j)) /\ (l_par s' < l_free s')%nat.
  Proof.
    induction fuel as [|fuel IH]; intros hes v fp params s a c s' WF PF MF E; [discriminate|]. cbn [turns] in E.
    destruct (Nat.ltb_spec (l_iter s) maxiter) as [HI|]; [|discriminate]. destruct (solve _ _ _) as [q|]; [|discriminate].
    set (np := fun k => clip lims (nth k fi 0%nat) (fp k + / 2 * q k)) in *.
    set (st := if (length fi =? m_np m)%nat then alloc s np else (params, write s params (place fi np 0 (l_heap s params)))) in *.
    assert (PR : (fst st < l_free (snd st))%nat /\ (params < l_free (snd st))%nat /\ (l_free s <= l_free (snd st))%nat /\ l_par (snd st) = l_par s /\ l_chi (snd st) = l_chi s /\ l_iter (snd st) = l_iter s /\ l_lam (snd st) = l_lam s /\
      (forall j, (j < m_np m)%nat -> l_heap (snd st) (fst st) j = place fi np 0 (l_heap s params) j) /\ (forall j, (j < m_np m)%nat -> ~ In j fi -> l_heap (snd st) params j = l_heap s params j)).
    { unfold st. destruct (Nat.eqb_spec (length fi) (m_np m)) as [EL|EL]; cbn; repeat split; try lia.
      - intros j Hj. rewrite Nat.eqb_refl. symmetry. rewrite <- (insert_place m np fi _ j WF Hj). unfold insertParameters. apply Nat.eqb_eq in EL. rewrite EL. reflexivity.
      - intros j Hj Ho. destruct (Nat.eqb_spec params (l_free s)); [lia|reflexivity].
      - intros j Hj. rewrite Nat.eqb_refl. reflexivity.
      - intros j Hj Ho. rewrite Nat.eqb_refl. apply place_out. exact Ho. }
    destruct st as [b s1] eqn:ES. cbn [fst snd] in PR. destruct PR as (P1 & P2 & P3 & P4 & P5 & P6 & P7 & P8 & P9).
    destruct (Rle_dec (chisq _ _ _ _) 0); [discriminate|]. cbn [set_l l_chi l_lam l_iter] in E.
    destruct (Rle_dec _ (l_chi s1)) as [HC|HC].
    - injection E as <- <- <-. cbn [set_l l_heap l_chi l_free l_par l_iter]. repeat split; auto; try lia; try lra.
      + intros j Hj Ho. rewrite P8 by exact Hj. apply place_out. exact Ho.
      + rewrite P8 by exact H0. destruct (In_nth _ _ 0%nat H1) as (k & Hk & <-). rewrite place_in by (eauto using wfi_nodup). apply clip_in. exact H.
      + rewrite P8 by exact H0. destruct (In_nth _ _ 0%nat H1) as (k & Hk & <-). rewrite place_in by (eauto using wfi_nodup). apply clip_in. exact H.
    - apply IH in E; [|exact WF|exact P2|cbn; lia]. cbn [set_l l_heap l_chi l_free l_par l_iter] in E.
      destruct E as (Q1 & Q2 & Q3 & Q4 & Q5 & Q6 & Q7 & Q8 & Q9 & Q10). repeat split; auto; try congruence; try lia; try lra.
      + intros j Hj Ho. rewrite Q8 by assumption. apply P9; assumption.
      + apply (Q9 H); assumption.
      + apply (Q9 H); assumption.
  Qed.

  Definition start_of (par0 : option nat) (s : lst) : nat := match par0 with Some a => a | None => l_par s end.

  Lemma steps_ok : forall fuel tp s chis a s' cs, wfi (m_np m) fi -> (tp < l_free s)%nat -> (l_par s < l_free s)%nat ->
    (forall c, head chis = Some c -> c = l_chi s) ->
    StronglySorted Rle chis ->
    steps solve m f lims y wgt fi maxiter tolerance fuel tp s chis = (Ret a, s', cs) ->
    l_par s' = a /\ l_chi s' = chiExtra m f y wgt (l_heap s' a) /\ l_chi s' <= l_chi s /\ (exists r, cs = l_chi s' :: r) /\ StronglySorted Rle cs /\
    (forall c, In c cs -> In c chis \/ c <= l_chi s) /\
    (l_iter s' <= maxiter)%nat /\ (forall j, (j < m_np m)%nat -> ~ In j fi -> l_heap s' a j = l_heap s tp j) /\
    (okl -> forall j, (j < m_np m)%nat -> In j fi -> inlims j (l_heap s' a j)).
  Proof.
    induction fuel as [|fuel IH]; intros tp s chis a s' cs WF TF MF HD SO E; [discriminate|]. cbn [steps] in E.
    destruct (Nat.ltb_spec (l_iter s) maxiter) as [HI|]; [|discriminate]. destruct (trialfit _ _ _ _ _ _ _ _ tp s) as [[[b c]|e] s1] eqn:ET; [|discriminate].
    unfold trialfit in ET. apply turns_ok in ET; auto. destruct ET as (Q1 & Q2 & Q3 & Q4 & Q5 & Q6 & Q7 & Q8 & Q9 & Q10).
    assert (SC : StronglySorted Rle (c :: chis)).
    { constructor; [exact SO|]. destruct chis as [|d chis]; [constructor|]. specialize (HD d eq_refl). subst d. inversion SO; subst. constructor; [exact Q2|].
      eapply Forall_impl; [|eassumption]. cbn. intros; lra. }
    cbn [set_l set_lpar l_chi l_lam l_iter] in E. destruct (Rlt_dec (Rabs _) _).
    - injection E as <- <- <-. cbn [set_l set_lpar l_par l_chi l_heap l_iter]. repeat split; auto; try lia.
      + exists chis. reflexivity.
      + intros d [<-|Hd]; [right; exact Q2|left; exact Hd].
      + apply (Q9 H); assumption.
      + apply (Q9 H); assumption.
    - apply IH in E; auto; cbn [set_l set_lpar l_par l_chi l_heap l_iter l_free head] in *.
      + destruct E as (R1 & R2 & R3 & R4 & R5 & R6 & R7 & R8 & R9). repeat split; auto; try lra.
        * intros d Hd. destruct (R6 d Hd) as [[<-|H]|H]; [right; exact Q2|left; exact H|right; lra].
        * intros j Hj Ho. rewrite R8 by assumption. apply Q8; assumption.
        * apply (R9 H); assumption.
        * apply (R9 H); assumption.
      + intros d Hd. injection Hd as <-. reflexivity.
  Qed.

  Definition base (par0 : option nat) (s : lst) : R := chiExtra m f y wgt (l_heap s (start_of par0 s)).

  (** C29.  A fit that returns: the model has the parameters returned, chi is theirs, the accepted chi-squareds do
      not increase from one to the next and the first of them is at most one above that of the start. *)
  Theorem C29_fit par0 s a s' cs : wfi (m_np m) fi -> (start_of par0 s < l_free s)%nat -> (l_par s < l_free s)%nat ->
    lmfit solve m f lims y wgt fi maxiter tolerance par0 s = (Ret a, s', cs) ->
    l_par s' = a /\ l_chi s' = chiExtra m f y wgt (l_heap s' a) /\ (exists r, cs = l_chi s' :: r) /\
    StronglySorted Rle cs /\ (forall c, In c cs -> c <= base par0 s + 1) /\ (l_iter s' <= maxiter)%nat.
  Proof.
    intros WF SF MF E. unfold lmfit in E. destruct (Rle_dec _ 0); [discriminate|]. apply steps_ok in E; auto.
    - cbn [set_l l_chi] in E. destruct E as (R1 & R2 & R3 & R4 & R5 & R6 & R7 & R8 & R9). repeat split; auto. intros c Hc. destruct (R6 c Hc) as [[]|H]. exact H.
    - intros c H. discriminate.
    - constructor.
  Qed.

  (** The parameters fitted are in the limits and the others are as they were at the start. *)
  Theorem C29_limits par0 s a s' cs : wfi (m_np m) fi -> (start_of par0 s < l_free s)%nat -> (l_par s < l_free s)%nat -> okl ->
    lmfit solve m f lims y wgt fi maxiter tolerance par0 s = (Ret a, s', cs) ->
    (forall j, (j < m_np m)%nat -> In j fi -> inlims j (l_heap s' a j)) /\
    (forall j, (j < m_np m)%nat -> ~ In j fi -> l_heap s' a j = l_heap s (start_of par0 s) j).
  Proof.
    intros WF SF MF O E. unfold lmfit in E. destruct (Rle_dec _ 0); [discriminate|]. apply steps_ok in E; auto.
    - cbn [set_l l_heap] in E. destruct E as (R1 & R2 & R3 & R4 & R5 & R6 & R7 & R8 & R9). split; auto.
    - intros c H. discriminate.
    - constructor.
  Qed.
End Lm.
Print Assumptions C29_fit.
Print Assumptions C29_limits.

(** result(p) = 3/4 + p + c p^2, one datum 0, start at 0: the first step goes to x. *)
Definition xx : R := - 375 / 1001.
Definition pmod (np : nat) (c : R) : pmodel := mkM 1 np (fun p _ => 3 / 4 + p 0%nat + c * p 0%nat ^ 2) (fun p _ j => if (j =? 0)%nat then 1 + 2 * c * p 0%nat else 0).
Definition nolims : nat -> option R * option R := fun _ => (None, None).
Definition l0 : lst := mkL (fun _ => zeros) 2 0 0 0 0.

(** The start has chi-squared 9/16, the result 25/16. *)
Theorem C29_worse_refuted : exists m s a s' cs, made m (obj zeros) /\
  lmfit solve1 m (obj zeros) nolims zeros ones [0%nat] 1 (/ 10000) None s = (Ret a, s', cs) /\
  chiExtra m (obj zeros) zeros ones (l_heap s (l_par s)) < chiExtra m (obj zeros) zeros ones (l_heap s' a).
Proof.
  set (c := (1 / 2 - xx) / xx ^ 2). assert (XX : xx ^ 2 <> 0) by (unfold xx; lra).
  exists (pmod 1 c), l0.
  assert (C0 : chisq (pmod 1 c) zeros ones zeros = 9 / 16) by (unfold chisq; cbn; unfold zeros, ones; field).
  assert (CE : forall p, chiExtra (pmod 1 c) (obj zeros) zeros ones p = chisq (pmod 1 c) zeros ones p) by (intro p; unfold chiExtra; cbn; ring).
  unfold lmfit. cbn [l_heap l_par l0]. rewrite C0, CE, C0. destruct (Rle_dec (9 / 16) 0); [lra|].
  cbn [steps set_l l_iter l0 Nat.ltb Nat.leb]. unfold trialfit. cbn [turns set_l l_heap l_par l_free l_iter l0 Nat.ltb Nat.leb l_lam l_chi]. unfold solve1 at 1. cbn [length Nat.eqb].
  match goal with |- context [Req_EM_T ?a 0] => assert (H : a = 1001 / 1000) end.
  { unfold getHessian, rows, getDesign, append. cbn. unfold zeros, ones. field. }
  rewrite H. destruct (Req_EM_T (1001 / 1000) 0); [lra|]. cbn [m_np pmod Nat.eqb alloc l_free l0 set_l l_heap].
  match goal with |- context [chisq (pmod 1 c) zeros ones ?p] => set (np := p); assert (EN : np 0%nat = xx) end.
  { unfold np, clip, nolims, getVector, rows, getDesign, append, xx. cbn. unfold zeros, ones. field. }
  assert (C1 : chisq (pmod 1 c) zeros ones np = 25 / 16).
  { unfold chisq. cbn [sum m_n pmod m_res]. rewrite EN. unfold c, zeros, ones. field. intro Z. apply XX. rewrite Z. ring. }
  rewrite C1. destruct (Rle_dec (25 / 16) 0); [lra|]. rewrite CE, C1. cbn [l_chi l_lam l_iter set_l l0].
  destruct (Rle_dec (25 / 16) (9 / 16 + 1)) as [_|]; [|lra]. cbn [l_chi l_lam l_iter set_lpar set_l l0].
  destruct (Rlt_dec (9 / 16 + 1) 1); [lra|]. replace (9 / 16 + 1 - 25 / 16) with 0 by field. rewrite Rabs_R0.
  destruct (Rlt_dec 0 _) as [_|N]; [|exfalso; apply N; lra].
  do 3 eexists. split; [exact I|]. split; [reflexivity|]. rewrite ?CE.
  change (9 / 16 < chisq (pmod 1 c) zeros ones np). rewrite C1. lra.
Qed.
Print Assumptions C29_worse_refuted.

(** A fit that fails, while a parameter is kept: the rejected parameters are in the model (in the array that was
    given, when par0 was given). *)
Theorem C29_failed_refuted : exists m s par0 s' cs, par0 = None /\
  lmfit solve1 m (obj zeros) nolims zeros ones [0%nat] 1 (/ 10000) par0 s = (Err ConvergenceError, s', cs) /\
  chiExtra m (obj zeros) zeros ones (l_heap s (start_of par0 s)) + 1 < chiExtra m (obj zeros) zeros ones (l_heap s' (start_of par0 s)).
Proof.
  set (c := (5 / 4 - xx) / xx ^ 2). assert (XX : xx ^ 2 <> 0) by (unfold xx; lra).
  exists (pmod 2 c), l0, None.
  assert (C0 : chisq (pmod 2 c) zeros ones zeros = 9 / 16) by (unfold chisq; cbn; unfold zeros, ones; field).
  assert (CE : forall p, chiExtra (pmod 2 c) (obj zeros) zeros ones p = chisq (pmod 2 c) zeros ones p) by (intro p; unfold chiExtra; cbn; ring).
  unfold lmfit. cbn [l_heap l_par l0]. rewrite C0, CE, C0. destruct (Rle_dec (9 / 16) 0); [lra|].
  cbn [steps set_l l_iter l0 Nat.ltb Nat.leb]. unfold trialfit. cbn [turns set_l l_heap l_par l_free l_iter l0 Nat.ltb Nat.leb l_lam l_chi]. unfold solve1 at 1. cbn [length Nat.eqb].
  match goal with |- context [Req_EM_T ?a 0] => assert (H : a = 1001 / 1000) end.
  { unfold getHessian, rows, getDesign, append. cbn. unfold zeros, ones. field. }
  rewrite H. destruct (Req_EM_T (1001 / 1000) 0); [lra|]. cbn [m_np pmod Nat.eqb write l_free l0 set_l l_heap].
  match goal with |- context [chisq (pmod 2 c) zeros ones ?p] => set (np := p); assert (EN : np 0%nat = xx) end.
  { unfold np, clip, nolims, getVector, rows, getDesign, append, xx. cbn. unfold zeros, ones. field. }
  assert (C1 : chisq (pmod 2 c) zeros ones np = 4).
  { unfold chisq. cbn [sum m_n pmod m_res]. rewrite EN. unfold c, zeros, ones. field. intro Z. apply XX. rewrite Z. ring. }
  rewrite C1. destruct (Rle_dec 4 0); [lra|]. rewrite CE, C1. cbn [l_chi l_lam l_iter write set_l l0].
  destruct (Rle_dec 4 (9 / 16 + 1)) as [|_]; [lra|]. cbn [l_chi l_lam l_iter set_l Nat.leb Nat.ltb].
  do 2 eexists. split; [reflexivity|]. split; [reflexivity|]. rewrite ?CE.
  change (9 / 16 + 1 < chisq (pmod 2 c) zeros ones np). rewrite C1. lra.
Qed.
Print Assumptions C29_failed_refuted.

(** What is minimized: chisq and, for each normalization (a row of factors, a value and a weight), the weight times the square of what
    the row misses its value by. *)
Theorem C29_chisq_extra : forall m f y wgt p,
  (f_nrow f = 0%nat -> chiExtra m f y wgt p = chisq m y wgt p) /\
  (forall n, f_nrow f = S n -> forall g, f_nrow g = n -> f_ndf g = f_ndf f -> f_ndat g = f_ndat f -> f_nwgt g = f_nwgt f ->
     let miss := sum (m_np m) (fun j => f_ndf f n j * p j) - f_ndat f n in
     chiExtra m f y wgt p = chiExtra m g y wgt p + f_nwgt f n * miss * miss).
Proof.
  intros m f y wgt p. split.
  - intro Z. unfold chiExtra. rewrite Z. cbn [sum]. ring.
  - intros n Hn g E1 E2 E3 E4 miss. unfold chiExtra. rewrite Hn, E1, E2, E3, E4. cbn [sum]. fold miss. ring.
Qed.
Print Assumptions C29_chisq_extra.
(** One parameter, which is 1 and should be 3 with weight 5; the one residual is 7/4. *)
Example C29_chisq_extra_example :
  let f n := mkF ones None 1 None 1 n (fun _ _ => 1) (fun _ => 3) (fun _ => 5) None in
  chiExtra (pmod 1 0) (f 1%nat) zeros ones ones = (7 / 4) ^ 2 + 5 * 2 * 2.
Proof.
  intro f. rewrite (proj2 (C29_chisq_extra (pmod 1 0) (f 1%nat) zeros ones ones) 0%nat eq_refl (f 0%nat) eq_refl eq_refl eq_refl eq_refl).
  rewrite (proj1 (C29_chisq_extra (pmod 1 0) (f 0%nat) zeros ones ones) eq_refl).
  unfold chisq. cbn. unfold zeros, ones. field.
Qed.
