(** Theorems C28: QRFitter. *)
From Coq Require Import List Arith Reals Bool Lia Lra Psatz.
From Verif Require Import L_List L_Sum M_Fitter S_Fitter P_Fitter P_Fitter2 T_Fitter.
Import ListNotations.
Local Open Scope R_scope.

(** With a new decomposition it is the squares of the weights that count. *)
Theorem C28_squares qrinv m off D y weights acc keep s r s' : qrsolver qrinv -> linear m off D -> made m s -> dict keep -> fair m weights acc ->
  (0 < m_np m)%nat -> (forall i, (i < f_nrow s)%nat -> 0 <= f_nwgt s i) ->
  (forall i j, (i < f_nrow s)%nat -> (j < m_np m)%nat -> ~ free keep s j -> f_ndf s i j = 0) ->
  f_qr s = None \/ weights <> None ->
  qrfit qrinv m y weights acc keep s = (r, s') -> (exists p, r = Ret p) \/ r = Err ValueError ->
  (forall p, r = Ret p -> p = f_par s') /\
  forall p', (forall j, (j < m_np m)%nat -> ~ free keep s j -> p' j = f_par s' j) ->
    goal m s y (fun i => wgt_of weights acc i ^ 2) (f_par s') <= goal m s y (fun i => wgt_of weights acc i ^ 2) p'.
Proof.
  intros QS L MD DK FR NP NW KR NQ E OK.
  destruct (qrfit_optimum qrinv m off D y weights acc keep s r s' QS L MD DK NP NW) as (fi & s1 & w & q & EP & EF & EC & ER & _ & _ & G); [|exact E|exact OK|].
  { intros s1 fi w EP. split; [|eapply kept_rows; eassumption]. intros qq Q W. destruct NQ; congruence. }
  destruct (prolog_spec _ _ _ _ _ _ _ _ MD DK EP) as (WF & FI & -> & _). split; [exact ER|].
  intros p' K.
  assert (GW : forall p, goal m s y (fun i => wgt_of weights acc i ^ 2) p = goal m s y (fun i => fitWgts weights acc i ^ 2) p).
  { intro p. unfold goal. f_equal. apply sum_ext. intros i Hi. rewrite fitWgts_spec; [reflexivity|]. destruct FR as [_ F]. destruct acc as [a|]; [|exact I]. pose proof (F a eq_refl i Hi). lra. }
  rewrite !GW. apply G. intros j Hj Ho. apply K; [assumption|]. intro F. apply Ho, FI; assumption.
Qed.
Print Assumptions C28_squares.

(** So it is the optimum of Fitter when data are either used or not. *)
Theorem C28_same qrinv m off D y weights acc keep s r s' : qrsolver qrinv -> linear m off D -> made m s -> dict keep -> fair m weights acc ->
  (0 < m_np m)%nat -> (forall i, (i < f_nrow s)%nat -> 0 <= f_nwgt s i) ->
  (forall i j, (i < f_nrow s)%nat -> (j < m_np m)%nat -> ~ free keep s j -> f_ndf s i j = 0) ->
  f_qr s = None \/ weights <> None -> (forall i, (i < m_n m)%nat -> wgt_of weights acc i = 0 \/ wgt_of weights acc i = 1) ->
  qrfit qrinv m y weights acc keep s = (r, s') -> (exists p, r = Ret p) \/ r = Err ValueError ->
  forall p', (forall j, (j < m_np m)%nat -> ~ free keep s j -> p' j = f_par s' j) ->
    goal m s y (wgt_of weights acc) (f_par s') <= goal m s y (wgt_of weights acc) p'.
Proof.
  intros QS L MD DK FR NP NW KR NQ W E OK p' K.
  destruct (C28_squares qrinv m off D y weights acc keep s r s' QS L MD DK FR NP NW KR NQ E OK) as [_ G]. specialize (G p' K).
  assert (GW : forall p, goal m s y (fun i => wgt_of weights acc i ^ 2) p = goal m s y (wgt_of weights acc) p).
  { intro p. unfold goal. f_equal. apply sum_ext. intros i Hi. destruct (W i Hi) as [->| ->]; ring. }
  rewrite !GW in G. exact G.
Qed.
Print Assumptions C28_same.

(** Any number of fits without weights with the same object, one decomposition: each is an optimum. *)
Fixpoint fits qrinv (m : pmodel) (ys : list vec) (s : fst8) : list (result vec * fst8) :=
  match ys with
  | [] => []
  | y :: r => let o := qrfit qrinv m y None None None s in o :: fits qrinv m r (snd o)
  end.

Lemma qrfit_frame qrinv m y t o t' : made m t -> (0 < m_np m)%nat -> qrfit qrinv m y None None None t = (o, t') ->
  f_ndat t' = f_ndat t /\ (o <> Err ValueError -> (forall p, o <> Ret p) -> f_index t' = f_index t /\ f_nrow t' = f_nrow t /\ f_ndf t' = f_ndf t /\ f_nwgt t' = f_nwgt t /\ f_qr t' = f_qr t).
Proof.
  intros MT NP E. unfold qrfit in E. destruct (fitprolog m None None None t) as [[[fi w] s1]|e] eqn:EP; [|injection E as <- <-; split; [reflexivity|intros; repeat split]].
  destruct (prolog_spec m None None None t fi w s1 MT I EP) as (_ & _ & _ & E1 & E2 & E3 & E4 & E5 & EI & _).
  destruct (Nat.eqb_spec (m_np m) 0); [lia|].
  destruct (1 <? f_nrow s1)%nat; [injection E as <- <-; repeat split; assumption|]. cbn zeta in E.
  match type of E with match ?x with Some _ => _ | None => _ end = _ => destruct x as [[[a b] q]|] end; [|injection E as <- <-; repeat split; assumption].
  match type of E with (if ?x then _ else _) = _ => destruct x end; [injection E as <- <-; split; [exact E3|congruence]|].
  match type of E with (if ?x then _ else _) = _ => destruct x end; [injection E as <- <-; split; [exact E3|congruence]|].
  unfold chiSquared in E. cbn zeta in E.
  match type of E with context [Rle_dec ?x 0] => destruct (Rle_dec x 0) end; injection E as <- <-; (split; [exact E3|]).
  - intro H. exfalso. apply H. reflexivity.
  - intros _ H. exfalso. eapply H. reflexivity.
Qed.

Theorem C28_history qrinv m off D ys s : qrsolver qrinv -> linear m off D -> made m s -> (0 < m_np m)%nat ->
  (forall i, (i < f_nrow s)%nat -> 0 <= f_nwgt s i) ->
  (forall i j, (i < f_nrow s)%nat -> (j < m_np m)%nat -> ~ free None s j -> f_ndf s i j = 0) -> f_qr s = None ->
  forall k p s' p', nth_error (fits qrinv m ys s) k = Some (Ret p, s') -> (forall j, (j < m_np m)%nat -> ~ free None s j -> p' j = p j) ->
    goal m s (nth k ys zeros) ones p <= goal m s (nth k ys zeros) ones p'.
Proof.
  intros QS L MD NP NW KR NQ.
  set (fi := match f_index s with Some fi => fi | None => seq 0 (m_np m) end).
  set (W := append (m_n m) ones (fun i => sqrt (f_nwgt s i))).
  assert (GEN : forall ys t, f_index t = f_index s -> f_nrow t = f_nrow s -> f_ndf t = f_ndf s -> f_nwgt t = f_nwgt s -> f_ndat t = f_ndat s ->
    (forall qq, f_qr t = Some qq -> exists M A, qq = (length fi, rows m s, M) /\ qrinv (rows m s) (length fi) A = Some M /\
      forall i k, (i < rows m s)%nat -> (k < length fi)%nat -> A i k = append (m_n m) D (f_ndf s) i (nth k fi 0%nat) * W i) ->
    forall k p s' p', nth_error (fits qrinv m ys t) k = Some (Ret p, s') -> (forall j, (j < m_np m)%nat -> ~ free None s j -> p' j = p j) ->
    goal m s (nth k ys zeros) ones p <= goal m s (nth k ys zeros) ones p').
  2:{ apply GEN; auto. intros qq Q. congruence. }
  clear ys. intro ys. induction ys as [|y ys IH]; intros t TI TN TD TW TA TQ k p s' p' E K; [destruct k; discriminate|].
  cbn [fits] in E. destruct (qrfit qrinv m y None None None t) as [o1 t'] eqn:EQ. cbn [snd] in E.
  assert (MT : made m t) by (unfold made; rewrite TI; exact MD).
  assert (FT : forall j, free None t j <-> free None s j) by (intro j; unfold free; rewrite TI; tauto).
  assert (RT : rows m t = rows m s) by (unfold rows; rewrite TN; reflexivity).
  assert (EPT : forall s1 fi0 w, fitprolog m None None None t = Ret (fi0, w, s1) -> fi0 = fi /\ w = fitWgts None None).
  { intros s1 fi0 w EP. unfold fitprolog in EP. cbn [f_index set_sumw] in EP. rewrite TI in EP. unfold fi. destruct (f_index s); injection EP as <- <- <-; auto. }
  assert (DS : forall par i k, (i < rows m s)%nat -> (k < length fi)%nat -> getDesign m t par fi i k * append (m_n m) (fitWgts None None) (fun i => sqrt (f_nwgt t i)) i = append (m_n m) D (f_ndf s) i (nth k fi 0%nat) * W i).
  { intros par i k0 Hi Hk. unfold getDesign, W, append. rewrite TD, TW. destruct (Nat.ltb_spec i (m_n m)) as [Hn|Hn]; [|reflexivity].
    destruct (L par i Hn) as [_ ->].
    - unfold fitWgts, ones. field.
    - unfold fi in *. destruct (f_index s) as [f|] eqn:EI.
      + exact (proj1 (Forall_forall _ _) (wfi_range _ _ (made_wfi _ _ _ MD EI)) _ (nth_In _ _ Hk)).
      + rewrite seq_length in Hk. rewrite seq_nth by exact Hk. lia. }
  assert (QO : (exists p, o1 = Ret p) \/ o1 = Err ValueError -> exists fi s1 w q, fitprolog m None None None t = Ret (fi, w, s1) /\
      f_par t' = insertParameters m q fi (f_par s1) /\ f_chi t' = Some (chisq m y w (f_par t')) /\ (forall p, o1 = Ret p -> p = f_par t') /\
      (f_index t' = f_index t /\ f_nrow t' = f_nrow t /\ f_ndf t' = f_ndf t /\ f_nwgt t' = f_nwgt t) /\
      (exists M A, f_qr t' = Some (length fi, rows m t, M) /\ qrinv (rows m t) (length fi) A = Some M /\
        forall i k, (i < rows m t)%nat -> (k < length fi)%nat -> A i k = getDesign m t (f_par s1) fi i k * append (m_n m) w (fun i => sqrt (f_nwgt t i)) i) /\
      forall p', (forall j, (j < m_np m)%nat -> ~ In j fi -> p' j = f_par t' j) ->
        goal m t y (fun i => w i ^ 2) (f_par t') <= goal m t y (fun i => w i ^ 2) p').
  { intro OK. apply (qrfit_optimum qrinv m off D y None None None t o1 t' QS L MT I NP); [intros i Hi; rewrite TN in Hi; rewrite TW; auto| |exact EQ|exact OK].
    intros s1 fi0 w EP. split.
    - destruct (EPT _ _ _ EP) as [-> ->]. intros qq Q _. destruct (TQ qq Q) as (M & A & -> & H1 & H2). exists M, A. rewrite RT. split; [reflexivity|]. split; [exact H1|].
      intros i k0 Hi Hk. rewrite (H2 i k0 Hi Hk). symmetry. apply DS; assumption.
    - refine (kept_rows m None None None t MT I _ s1 fi0 w EP). intros i j Hi Hj NF. rewrite TD. apply KR; [rewrite TN in Hi; exact Hi|exact Hj|]. intro F. apply NF, FT, F. }
  destruct k as [|k]; cbn [nth_error nth] in *.
  - injection E as E1 E2. destruct (QO ltac:(left; eexists; exact E1)) as (fi0 & s1 & w & q & EP & EF & _ & ER & _ & _ & G).
    destruct (EPT _ _ _ EP) as [-> ->]. pose proof (ER p E1) as EPP. clear E1 ER. subst p.
    assert (GE : forall p, goal m s y ones p = goal m t y (fun i => fitWgts None None i ^ 2) p).
    { intro p0. unfold goal. rewrite TN, TD, TW. f_equal; apply sum_ext; intros i Hi; [unfold fitWgts, ones; f_equal; field|rewrite TA; reflexivity]. }
    rewrite !GE. apply G. intros j Hj Ho. apply K; [exact Hj|]. intro F. apply Ho.
    destruct (prolog_spec m None None None t _ _ _ MT I EP) as (_ & FI & _). apply FI; [exact Hj|]. apply FT. exact F.
  - assert (TA' : f_ndat t' = f_ndat t /\ (o1 <> Err ValueError -> (forall p, o1 <> Ret p) -> f_index t' = f_index t /\ f_nrow t' = f_nrow t /\ f_ndf t' = f_ndf t /\ f_nwgt t' = f_nwgt t /\ f_qr t' = f_qr t)).
    { exact (qrfit_frame _ _ _ _ _ _ MT NP EQ). }
    destruct TA' as [TA1 TA2].
    assert (OK : ((exists p, o1 = Ret p) \/ o1 = Err ValueError) \/ (o1 <> Err ValueError /\ forall p, o1 <> Ret p)) by (destruct o1 as [v|e]; [left; left; eauto|destruct e; try (left; right; reflexivity); (right; split; [discriminate|intros; discriminate])]).
    destruct OK as [OK|[O1 O2]].
    + destruct (QO OK) as (fi0 & s1 & w & q & EP & _ & _ & _ & (I1 & I2 & I3 & I4) & (M & A & I5 & I6 & I7) & _). destruct (EPT _ _ _ EP) as [-> ->].
      refine (IH t' _ _ _ _ _ _ k p s' p' E K); try congruence.
      intros qq Q. exists M, A. rewrite RT in *. split; [congruence|]. split; [exact I6|]. intros i k0 Hi Hk. rewrite (I7 i k0 Hi Hk). apply DS; assumption.
    + destruct (TA2 O1 O2) as (I1 & I2 & I3 & I4 & I5). refine (IH t' _ _ _ _ _ _ k p s' p' E K); try congruence.
      intros qq Q. apply TQ. congruence.
Qed.
Print Assumptions C28_history.

Ltac calc := unfold goal, chisq, getVector, rows, getDesign, append, fitWgts, w12, y03, qr1, zeros, ones in *; cbn -[Rle_dec Rlt_dec sqrt] in *; unfold zeros, ones in *.

Lemma qr_run2 y w s p : f_index s = None -> f_nrow s = 0%nat -> f_qr s = None \/ w <> None ->
  let W := fitWgts w None in
  W 0%nat = 1 -> (W 1%nat = 1 \/ W 1%nat = 2) -> (y 0%nat * W 0%nat ^ 2 + y 1%nat * W 1%nat ^ 2) / (W 0%nat ^ 2 + W 1%nat ^ 2) = p ->
  0 < (y 0%nat - p) ^ 2 + (y 1%nat - p) ^ 2 ->
  exists q s', qrfit qr1 (cmod 2) y w None None s = (Ret q, s') /\ q 0%nat = p /\ f_index s' = None /\ f_nrow s' = 0%nat /\
    exists M, f_qr s' = Some (1%nat, 2%nat, M) /\ M 0%nat 0%nat = 1 / (1 + W 1%nat ^ 2) /\ M 0%nat 1%nat = W 1%nat / (1 + W 1%nat ^ 2).
Proof.
  intros EI EN EQ. cbn zeta. set (W := fitWgts w None). intros W0 W1 EP PO. unfold qrfit, fitprolog. cbn [f_index set_sumw]. rewrite EI.
  cbn [m_np cmod Nat.eqb m_n set_npfit set_sumw f_nrow f_qr f_par f_ndat f_nwgt]. rewrite EN. cbn [Nat.ltb Nat.leb]. fold W.
  match goal with |- context [match ?x with Some q => Some q | None => ?z end] => assert (X : x = None) by (destruct EQ as [->|]; [reflexivity|destruct (f_qr s); [destruct w; [reflexivity|congruence]|reflexivity]]); rewrite X; clear X end.
  unfold qr1. cbn [length seq Nat.eqb]. unfold rows. cbn [m_n cmod f_nrow set_sumw set_npfit]. rewrite EN. cbn [Nat.add].
  match goal with |- context [Rlt_dec 0 ?a] => assert (A : a = 1 + W 1%nat ^ 2) by (unfold getDesign, append; cbn; rewrite W0; ring) end.
  rewrite A. assert (AP : 0 < 1 + W 1%nat ^ 2) by nra. destruct (Rlt_dec 0 _) as [_|]; [|lra].
  cbn [Nat.eqb negb orb m_np cmod f_nrow set_qr]. unfold set_qr at 1. cbn [f_nrow set_npfit set_sumw]. rewrite EN. cbn [Nat.add Nat.eqb negb].
  unfold chiSquared.
  match goal with |- context [Rle_dec ?a 0] => assert (C : a = (y 0%nat - p) ^ 2 + (y 1%nat - p) ^ 2 * W 1%nat) end.
  { unfold chisq, append, getDesign. cbn. rewrite W0 in *. rewrite <- EP. destruct W1 as [-> | ->]; unfold zeros; field. }
  rewrite C. destruct (Rle_dec _ 0) as [B|_]; [exfalso; pose proof (pow2_ge_0 (y 0%nat - p)); pose proof (pow2_ge_0 (y 1%nat - p)); destruct W1 as [W1|W1]; rewrite W1 in B; lra|].
  do 2 eexists. split; [reflexivity|]. split; [|split; [exact EI|split; [cbn; exact EN|]]].
  - unfold append, getDesign. cbn. rewrite W0 in *. rewrite <- EP. destruct W1 as [-> | ->]; unfold zeros; field.
  - eexists. split; [reflexivity|]. unfold getDesign, append. cbn. rewrite W0. split; field; destruct W1 as [-> | ->]; lra.
Qed.

(** Unequal weights: 0 and 3 with weights 1 and 2 give 12/5 instead of 2, with larger chi-squared. *)
Theorem C28_weights_refuted : exists s p s', made (cmod 2) s /\ f_qr s = None /\ qrfit qr1 (cmod 2) y03 (Some w12) None None s = (Ret p, s') /\
  p 0%nat = 12 / 5 /\ goal (cmod 2) s y03 w12 (fun _ => 2) < goal (cmod 2) s y03 w12 p.
Proof.
  exists (obj zeros). destruct (qr_run2 y03 (Some w12) (obj zeros) (12 / 5)) as (q & s' & E & Eq & _).
  1-2: reflexivity.
  1: left; reflexivity.
  1-4: unfold fitWgts, w12, y03; cbn; try (right; field); try field; lra.
  exists q, s'. split; [exact I|]. split; [reflexivity|]. split; [exact E|]. split; [exact Eq|]. unfold goal, y03, w12. cbn. rewrite Eq. lra.
Qed.
Print Assumptions C28_weights_refuted.

(** First a fit with weights, then one without: the old decomposition is used and 6/5 comes out instead of 3/2. *)
Theorem C28_stale_refuted : exists s p s1 p2 s2, made (cmod 2) s /\ f_qr s = None /\
  qrfit qr1 (cmod 2) y03 (Some w12) None None s = (Ret p, s1) /\ qrfit qr1 (cmod 2) y03 None None None s1 = (Ret p2, s2) /\
  p2 0%nat = 6 / 5 /\ goal (cmod 2) s1 y03 ones (fun _ => 3 / 2) < goal (cmod 2) s1 y03 ones p2.
Proof.
  exists (obj zeros). destruct (qr_run2 y03 (Some w12) (obj zeros) (12 / 5)) as (q & s1 & E & Eq & EI & EN & M & EQ & M0 & M1).
  1-2: reflexivity.
  1: left; reflexivity.
  1-4: unfold fitWgts, w12, y03; cbn; try (right; field); try field; lra.
  exists q, s1.
  assert (M0' : M 0%nat 0%nat = 1 / 5) by (rewrite M0; unfold fitWgts, w12; cbn; field).
  assert (M1' : M 0%nat 1%nat = 2 / 5) by (rewrite M1; unfold fitWgts, w12; cbn; field).
  assert (X : exists p2 s2, qrfit qr1 (cmod 2) y03 None None None s1 = (Ret p2, s2) /\ p2 0%nat = 6 / 5).
  { unfold qrfit, fitprolog. cbn [f_index set_sumw]. rewrite EI. cbn [m_np cmod Nat.eqb m_n set_npfit set_sumw f_nrow f_qr f_par f_ndat f_nwgt]. rewrite EN, EQ. cbn [Nat.ltb Nat.leb].
    unfold rows. cbn [m_n cmod f_nrow set_qr set_npfit set_sumw]. rewrite EN. cbn [Nat.add Nat.eqb negb orb length seq].
    unfold chiSquared. match goal with |- context [Rle_dec ?a 0] => assert (C : a = 117 / 25) end.
    { unfold chisq, append, fitWgts, y03. cbn. rewrite M0', M1'. unfold zeros. field. }
    rewrite C. destruct (Rle_dec _ 0); [lra|]. do 2 eexists. split; [reflexivity|]. unfold append, fitWgts, y03. cbn. rewrite M0', M1'. unfold zeros. field. }
  destruct X as (p2 & s2 & E2 & Ep). exists p2, s2. split; [exact I|]. split; [reflexivity|]. split; [exact E|]. split; [exact E2|]. split; [exact Ep|].
  unfold goal, y03, ones. cbn. rewrite EN, Ep. cbn. lra.
Qed.
Print Assumptions C28_stale_refuted.

(** First a fit that keeps a parameter, then one that does not: one value is put in both parameters. *)
Definition imod : pmodel := mkM 2 2 (fun p i => p i) (fun _ i j => if (i =? j)%nat then 1 else 0).
Definition y12 : vec := fun i => INR i + 1.
Theorem C28_keep_refuted : exists s p s1 p2 s2, made imod s /\ f_qr s = None /\ linear imod zeros (fun i j => if (i =? j)%nat then 1 else 0) /\
  qrfit qr1 imod y12 None None (Some [(1%nat, 0)]) s = (Ret p, s1) /\ qrfit qr1 imod y12 None None None s1 = (Ret p2, s2) /\
  p2 0%nat = 1 /\ p2 1%nat = 1 /\ goal imod s1 y12 ones y12 < goal imod s1 y12 ones p2.
Proof.
  exists (obj zeros).
  assert (LN : linear imod zeros (fun i j => if (i =? j)%nat then 1 else 0)).
  { intros p i Hi. cbn in Hi. split; [|reflexivity]. destruct i as [|[|i]]; [| |lia]; cbn; unfold zeros; lra. }
  assert (X : exists p s1 M, qrfit qr1 imod y12 None None (Some [(1%nat, 0)]) (obj zeros) = (Ret p, s1) /\ f_index s1 = None /\ f_nrow s1 = 0%nat /\ f_qr s1 = Some (1%nat, 2%nat, M) /\ M 0%nat 0%nat = 1 /\ M 0%nat 1%nat = 0).
  { unfold qrfit. cbn [fitprolog keepFixed keys map fst forallb m_np imod Nat.ltb Nat.leb andb]. cbn [seq filter existsb Nat.eqb orb negb length].
    cbn [f_nrow set_par set_npfit set_sumw obj Nat.ltb Nat.leb f_qr f_ndat f_nwgt f_par]. unfold qr1. cbn [Nat.eqb]. unfold rows. cbn [m_n imod f_nrow set_par set_npfit set_sumw obj Nat.add].
    match goal with |- context [Rlt_dec 0 ?a] => assert (A : a = 1) by (unfold getDesign, append, fitWgts; cbn; field) end. rewrite A.
    destruct (Rlt_dec 0 1); [|lra]. cbn [m_n imod f_nrow set_qr set_par set_npfit set_sumw obj Nat.add Nat.eqb negb orb].
    unfold chiSquared. match goal with |- context [Rle_dec ?a 0] => assert (C : a = 4) end.
    { unfold chisq, append, fitWgts, getDesign, y12. cbn. unfold zeros, values. cbn. field. }
    rewrite C. destruct (Rle_dec 4 0); [lra|]. do 3 eexists. split; [reflexivity|]. split; [reflexivity|]. split; [reflexivity|]. split; [reflexivity|].
    unfold getDesign, append, fitWgts. cbn. split; field. }
  destruct X as (p & s1 & M & E & EI & EN & EQ & M0 & M1). exists p, s1.
  assert (X : exists p2 s2, qrfit qr1 imod y12 None None None s1 = (Ret p2, s2) /\ p2 0%nat = 1 /\ p2 1%nat = 1).
  { unfold qrfit, fitprolog. cbn [f_index set_sumw]. rewrite EI. cbn [m_np imod Nat.eqb m_n set_npfit set_sumw f_nrow f_qr f_par f_ndat f_nwgt]. rewrite EN, EQ. cbn [Nat.ltb Nat.leb].
    unfold rows. cbn [m_n imod f_nrow set_qr set_npfit set_sumw]. rewrite EN. cbn [Nat.add Nat.eqb negb orb length seq].
    unfold chiSquared. match goal with |- context [Rle_dec ?a 0] => assert (C : a = 1) end.
    { unfold chisq, append, fitWgts, y12. cbn. rewrite M0, M1. unfold zeros. field. }
    rewrite C. destruct (Rle_dec 1 0); [lra|]. do 2 eexists. split; [reflexivity|]. unfold append, fitWgts, y12. cbn. rewrite M0, M1. unfold zeros. split; field. }
  destruct X as (p2 & s2 & E2 & Ep & Eq). exists p2, s2. split; [exact I|]. split; [reflexivity|]. split; [exact LN|]. split; [exact E|]. split; [exact E2|]. split; [exact Ep|]. split; [exact Eq|].
  unfold goal, y12, ones. cbn. rewrite EN, Ep, Eq. cbn. lra.
Qed.
Print Assumptions C28_keep_refuted.

(** Two fits without weights, as in C28_history. *)
Example C28_example : exists p s1 p2 s2, qrfit qr1 (cmod 2) y03 None None None (obj zeros) = (Ret p, s1) /\ p 0%nat = 3 / 2 /\
  fits qr1 (cmod 2) [y03; y12] (obj zeros) = [(Ret p, s1); (Ret p2, s2)] /\ p2 0%nat = 3 / 2.
Proof.
  destruct (qr_run2 y03 None (obj zeros) (3 / 2)) as (q & s1 & E & Eq & EI & EN & M & EQ & M0 & M1).
  1-2: reflexivity.
  1: left; reflexivity.
  1-4: unfold fitWgts, y03; cbn; try (left; field); try field; lra.
  exists q, s1.
  assert (X : exists p2 s2, qrfit qr1 (cmod 2) y12 None None None s1 = (Ret p2, s2) /\ p2 0%nat = 3 / 2).
  { assert (M0' : M 0%nat 0%nat = 1 / 2) by (rewrite M0; unfold fitWgts; cbn; field). assert (M1' : M 0%nat 1%nat = 1 / 2) by (rewrite M1; unfold fitWgts; cbn; field).
    unfold qrfit, fitprolog. cbn [f_index set_sumw]. rewrite EI. cbn [m_np cmod Nat.eqb m_n set_npfit set_sumw f_nrow f_qr f_par f_ndat f_nwgt]. rewrite EN, EQ. cbn [Nat.ltb Nat.leb].
    unfold rows. cbn [m_n cmod f_nrow set_qr set_npfit set_sumw]. rewrite EN. cbn [Nat.add Nat.eqb negb orb length seq].
    unfold chiSquared. match goal with |- context [Rle_dec ?a 0] => assert (C : a = 1 / 2) end.
    { unfold chisq, append, fitWgts, y12. cbn. rewrite M0', M1'. unfold zeros. field. }
    rewrite C. destruct (Rle_dec _ 0); [lra|]. do 2 eexists. split; [reflexivity|]. unfold append, fitWgts, y12. cbn. rewrite M0', M1'. unfold zeros. field. }
  destruct X as (p2 & s2 & E2 & Ep). exists p2, s2. split; [exact E|]. split; [exact Eq|]. split; [|exact Ep]. cbn [fits]. rewrite E. cbn [snd]. rewrite E2. reflexivity.
Qed.
