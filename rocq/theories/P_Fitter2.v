(** Proofs about fit and qrfit. *)
From Coq Require Import List Arith Reals Bool Lia Lra Psatz.
From Verif Require Import L_List L_Sum M_Fitter S_Fitter P_Fitter.
Import ListNotations.
Local Open Scope R_scope.

Lemma solve1_solver : solver solve1.
Proof.
  intros n H v q E k Hk. unfold solve1 in E. destruct (Nat.eqb_spec n 1) as [->|]; [|discriminate]. destruct (Req_EM_T _ 0) as [|NZ]; [discriminate|].
  injection E as <-. assert (k = 0%nat) as -> by lia. cbn. field. exact NZ.
Qed.

Lemma qr1_solver : qrsolver qr1.
Proof.
  intros n m A M E. unfold qr1 in E. destruct (Nat.eqb_spec m 1) as [->|]; [|discriminate]. destruct (Rlt_dec 0 _) as [P|]; [|discriminate].
  injection E as <-. set (N := sum n (fun i => A i 0%nat ^ 2)) in *. assert (SN : sqrt N * sqrt N = N) by (apply sqrt_sqrt; lra).
  assert (SP : 0 < sqrt N) by (apply sqrt_lt_R0; exact P).
  assert (IN : / N = / sqrt N * / sqrt N) by (rewrite <- Rinv_mult, SN; reflexivity).
  exists (fun i _ => A i 0%nat / sqrt N), (fun _ _ => sqrt N), (fun _ _ => / sqrt N). repeat split.
  - intros i k Hi Hk. assert (k = 0%nat) as -> by lia. cbn. field. lra.
  - intros k l Hk Hl. assert (k = 0%nat) as -> by lia. assert (l = 0%nat) as -> by lia. unfold delta. cbn.
    rewrite (sum_ext n _ (fun i => A i 0%nat ^ 2 * / N)); [rewrite sum_scal_r; fold N; field; lra|]. intros i _. rewrite IN. field. lra.
  - intros k l Hk Hl. assert (k = 0%nat) as -> by lia. assert (l = 0%nat) as -> by lia. unfold delta. cbn. field. lra.
  - intros k i Hk Hi. cbn [sum]. unfold Rdiv. change (sum n (fun i => A i 0%nat * (A i 0%nat * 1))) with N. rewrite IN. ring.
Qed.

Lemma fitWgts_spec weights acc i : (match acc with Some a => a i <> 0 | None => True end) -> fitWgts weights acc i = wgt_of weights acc i.
Proof. unfold fitWgts, wgt_of. destruct weights, acc; intro; field; auto. Qed.

Lemma fair_nonneg m weights acc i : fair m weights acc -> (i < m_n m)%nat -> 0 <= fitWgts weights acc i.
Proof.
  intros [F1 F2] Hi. unfold fitWgts. apply Rmult_le_pos.
  - destruct weights as [w|]; [pose proof (F1 w eq_refl i Hi); lra|lra].
  - apply Rlt_le, Rinv_0_lt_compat. destruct acc as [a|]; [pose proof (F2 a eq_refl i Hi); nra|lra].
Qed.

Lemma values_in keep k v : (k < length keep)%nat -> nth k keep (0%nat, 0) = v -> values keep k = snd v.
Proof. intros H <-. unfold values. rewrite <- (map_nth snd). rewrite (nth_indep _ 0 (snd (0%nat, 0))) by (rewrite map_length; exact H). reflexivity. Qed.

(** what fitprolog leaves *)
Lemma prolog_spec m weights acc keep s fi w s1 : made m s -> dict keep -> fitprolog m weights acc keep s = Ret (fi, w, s1) ->
  wfi (m_np m) fi /\ (forall j, (j < m_np m)%nat -> (In j fi <-> free keep s j)) /\ w = fitWgts weights acc /\
  f_nrow s1 = f_nrow s /\ f_ndf s1 = f_ndf s /\ f_ndat s1 = f_ndat s /\ f_nwgt s1 = f_nwgt s /\ f_qr s1 = f_qr s /\ f_index s1 = f_index s /\
  (forall j, free keep s j -> f_par s1 j = f_par s j) /\
  match keep with None => f_par s1 = f_par s /\ f_npfit s1 = length fi | Some kp => (forall j v, In (j, v) kp -> f_par s1 j = v) /\ f_npfit s1 = length kp end.
Proof.
  intros MD DK E. unfold fitprolog in E. destruct keep as [kp|].
  - cbn [keepFixed] in E. destruct (forallb _ (keys kp)); [|discriminate]. injection E as <- <- <-. cbn. repeat split.
    + eexists. reflexivity.
    + intro Hin. apply filter_In in Hin. destruct Hin as [_ Hb]. intro Hk. apply negb_true_iff in Hb.
      assert (existsb (Nat.eqb j) (keys kp) = true); [|congruence]. apply existsb_exists. exists j. split; [exact Hk|apply Nat.eqb_refl].
    + intro Hn. apply filter_In. split; [apply in_seq; lia|]. apply negb_true_iff. apply not_true_iff_false. intro Hb. apply existsb_exists in Hb.
      destruct Hb as (x & Hx & Ex). apply Nat.eqb_eq in Ex. subst x. exact (Hn Hx).
    + intros j Hf. cbn in Hf. rewrite place_out by exact Hf. reflexivity.
    + intros j v Hin. destruct (In_nth _ _ (0%nat, 0) Hin) as (i & Hi & Ei).
      pose proof (place_in (keys kp) (values kp) 0 (f_par s) i DK ltac:(unfold keys; rewrite map_length; exact Hi)) as P.
      unfold keys in P at 2. rewrite (map_nth fst kp (0%nat, 0)), Ei in P. cbn [fst] in P. rewrite P. cbn [Nat.add]. rewrite (values_in _ _ _ Hi Ei). reflexivity.
  - destruct (f_index _) as [fi0|] eqn:EI in E.
    + injection E as <- <- <-. cbn in EI. cbn. unfold made in MD. rewrite EI in *. destruct MD as [kept ->]. repeat split; try (eexists; reflexivity); auto.
    + injection E as <- <- <-. cbn in EI. cbn. rewrite EI. repeat split; auto.
      * exists (fun _ => true). symmetry. clear. induction (seq 0 (m_np m)) as [|a l IH]; [reflexivity|]. cbn. f_equal. exact IH.
      * intros _. apply in_seq. lia.
      * rewrite seq_length. reflexivity.
Qed.

Section Solve.
  Context (solve : nat -> mat -> vec -> option vec) (qrinv : nat -> nat -> mat -> option mat).

  (** the parameters after a fit that did not break off before *)
  Lemma fit_optimum m off D y weights acc keep s r s' : solver solve -> linear m off D -> made m s -> dict keep -> fair m weights acc -> (0 < m_np m)%nat ->
    (forall i, (i < f_nrow s)%nat -> 0 <= f_nwgt s i) ->
    (forall s1 fi w, fitprolog m weights acc keep s = Ret (fi, w, s1) -> forall i, (i < f_nrow s)%nat -> sum (m_np m) (fun j => f_ndf s i j * place fi zeros 0 (f_par s1) j) = 0) ->
    fit solve m y weights acc keep s = (r, s') -> (exists p, r = Ret p) \/ r = Err ValueError ->
    exists fi s1 w q, fitprolog m weights acc keep s = Ret (fi, w, s1) /\
      f_par s' = insertParameters m q fi (f_par s1) /\ f_chi s' = Some (chisq m y w (f_par s')) /\ (forall p, r = Ret p -> p = f_par s') /\
      f_npfit s' = f_npfit s1 /\ f_index s' = f_index s /\ f_sumw s' = f_sumw s1 /\
      forall p', (forall j, (j < m_np m)%nat -> ~ In j fi -> p' j = f_par s' j) ->
        goal m s y w p' = goal m s y w (f_par s') + sum (rows m s) (fun i => append (m_n m) w (f_nwgt s) i * sum (length fi) (fun k => getDesign m s (f_par s1) fi i k * (p' (nth k fi 0%nat) - f_par s' (nth k fi 0%nat))) ^ 2).
  Proof.
    intros SV L MD DK FR NP NW NN E OK. unfold fit in E. destruct (fitprolog m weights acc keep s) as [[[fi w] s1]|e] eqn:EP.
    2:{ injection E as <- <-. destruct OK as [[p Hp]|Hp]; [discriminate|]. unfold fitprolog in EP. destruct keep as [kp|].
        - cbn [keepFixed] in EP. destruct (forallb _ (keys kp)); [discriminate|]. congruence.
        - destruct (f_index (set_sumw s _)); discriminate. }
    destruct (prolog_spec _ _ _ _ _ _ _ _ MD DK EP) as (WF & FI & -> & E1 & E2 & E3 & E4 & _ & EI & FP & KP).
    destruct (Nat.eqb_spec (m_np m) 0); [lia|].
    set (w := fitWgts weights acc) in *. set (yc := append (m_n m) (fun i => (y i - m_res m (place fi zeros 0 (f_par s1)) i) * w i) (fun i => f_ndat s1 i * f_nwgt s1 i)) in *.
    destruct (solve (length fi) _ _) as [q|] eqn:EQ; [|injection E as <- <-; destruct OK as [[p Hp]|Hp]; discriminate].
    cbn zeta in E. exists fi, s1, w, q. split; [reflexivity|].
    unfold chiSquared in E. set (pp := insertParameters m q fi (f_par s1)) in *.
    assert (ES : s' = set_chi (set_par s1 pp) (chisq m y w pp)) by congruence.
    assert (ER : forall p, r = Ret p -> p = pp).
    { intros p Hp. subst r. destruct (Rle_dec _ 0) in E; [discriminate|]. congruence. }
    rewrite ES. cbn [f_par set_chi set_par f_chi f_npfit f_index f_sumw]. clear E ES. split; [reflexivity|]. split; [reflexivity|]. split; [exact ER|]. split; [reflexivity|]. split; [exact EI|]. split; [reflexivity|]. clear ER OK.
    intros p' K.
    assert (RW : rows m s1 = rows m s) by (unfold rows; rewrite E1; reflexivity).
    assert (GD : forall par i k, getDesign m s1 par fi i k = getDesign m s par fi i k) by (intros; unfold getDesign; rewrite E2; reflexivity).
    pose proof (SV _ _ _ _ EQ) as NE.
    assert (PP : forall j, (j < m_np m)%nat -> pp j = place fi q 0 (f_par s1) j) by (intros j Hj; unfold pp; apply insert_place; assumption).
    assert (PQ : forall k, (k < length fi)%nat -> pp (nth k fi 0%nat) = q k).
    { intros k Hk. rewrite PP by (exact (proj1 (Forall_forall _ _) (wfi_range _ _ WF) _ (nth_In _ _ Hk))). rewrite place_in by (eauto using wfi_nodup). reflexivity. }
    rewrite (goal_ext m off D s y w pp (place fi q 0 (f_par s1)) L PP). rewrite !goal_resid.
    rewrite (optimum m off D s y fi q (f_par s1) (f_par s1) w (f_nwgt s) p' L WF).
    - f_equal. apply sum_ext. intros i Hi. f_equal. f_equal. apply sum_ext. intros k Hk. rewrite (PQ k Hk). reflexivity.
    - exact (NN s1 fi w eq_refl).
    - intros i Hi. unfold append. destruct (Nat.ltb_spec i (m_n m)); [apply (fair_nonneg m); assumption|]. apply NW. unfold rows in Hi. lia.
    - intros k Hk. specialize (NE k Hk). unfold getHessian, getVector in NE. rewrite RW, E4 in NE.
      rewrite (sum_ext (rows m s) _ (fun i => getDesign m s (f_par s1) fi i k * yc i - getDesign m s (f_par s1) fi i k * (append (m_n m) w (f_nwgt s) i * sum (length fi) (fun l => getDesign m s (f_par s1) fi i l * q l)))).
      + rewrite sum_minus. rewrite (sum_ext (rows m s) (fun i => getDesign m s (f_par s1) fi i k * yc i) (fun i => getDesign m s1 (f_par s1) fi i k * yc i)) by (intros; rewrite GD; reflexivity).
        rewrite <- NE. apply Rminus_diag_eq.
        rewrite (sum_ext (length fi) _ (fun l => sum (rows m s) (fun i => getDesign m s (f_par s1) fi i k * (append (m_n m) w (f_nwgt s) i * (getDesign m s (f_par s1) fi i l * q l))))).
        * rewrite sum_swap. apply sum_ext. intros i _. rewrite <- sum_scal, <- sum_scal. apply sum_ext. intros; ring.
        * intros l _. rewrite <- sum_scal_r. apply sum_ext. intros i _. rewrite !GD. ring.
      + intros i Hi. rewrite (resid_place m off D s y fi q (f_par s1) (f_par s1) i L WF Hi (NN s1 fi w eq_refl)).
        unfold yc, append. rewrite E3, E4. destruct (Nat.ltb_spec i (m_n m)); ring.
    - intros j Hj Ho. rewrite K by assumption. rewrite PP by assumption. apply place_out. exact Ho.
  Qed.

  (** the decomposition solves the normal equations *)
  Lemma qr_normal n k A M y : qrsolver qrinv -> qrinv n k A = Some M ->
    forall j, (j < k)%nat -> sum n (fun i => A i j * (y i - sum k (fun l => A i l * sum n (fun i' => M l i' * y i')))) = 0.
  Proof.
    intros QS E j Hj. destruct (QS _ _ _ _ E) as (q & r & ri & HA & HQ & HR & HM).
    set (z := fun l => sum n (fun i => q i l * y i)).
    assert (PM : forall l, (l < k)%nat -> sum n (fun i' => M l i' * y i') = sum k (fun a => ri l a * z a)).
    { intros l Hl. rewrite (sum_ext n _ (fun i => sum k (fun a => ri l a * (q i a * y i)))).
      - rewrite sum_swap. apply sum_ext. intros a _. rewrite sum_scal. reflexivity.
      - intros i Hi. rewrite (HM l i Hl Hi), <- sum_scal_r. apply sum_ext. intros; ring. }
    assert (AP : forall i, (i < n)%nat -> sum k (fun l => A i l * sum n (fun i' => M l i' * y i')) = sum k (fun a => q i a * z a)).
    { intros i Hi. rewrite (sum_ext k _ (fun l => sum k (fun b => sum k (fun a => q i b * z a * (r b l * ri l a))))).
      - rewrite sum_swap. apply sum_ext. intros b Hb. rewrite sum_swap.
        rewrite (sum_ext k _ (fun a => q i b * z a * delta b a)).
        + rewrite (sum_one k b); [unfold delta; rewrite Nat.eqb_refl; ring|exact Hb|]. intros a _ Ne. unfold delta. destruct (Nat.eqb_spec b a); [congruence|ring].
        + intros a Ha. rewrite sum_scal, (HR b a Hb Ha). reflexivity.
      - intros l Hl. rewrite (PM l Hl), (HA i l Hi Hl), <- sum_scal_r. apply sum_ext. intros b _. rewrite <- sum_scal. apply sum_ext. intros a _. ring. }
    rewrite (sum_ext n _ (fun i => sum k (fun l => r l j * (q i l * y i)) - sum k (fun l => r l j * sum k (fun a => z a * (q i l * q i a))))).
    - rewrite sum_minus, sum_swap, (sum_swap n k). apply Rminus_diag_eq. apply sum_ext. intros l Hl. rewrite !sum_scal. f_equal. rewrite sum_swap.
      rewrite (sum_one k l).
      + rewrite sum_scal, (HQ l l Hl Hl). unfold delta. rewrite Nat.eqb_refl. unfold z. ring.
      + exact Hl.
      + intros a Ha Ne. rewrite sum_scal, (HQ l a Hl Ha). unfold delta. destruct (Nat.eqb_spec l a); [congruence|ring].
    - intros i Hi. rewrite (AP i Hi), (HA i j Hi Hj), Rmult_minus_distr_l. f_equal; rewrite <- sum_scal_r.
      + apply sum_ext. intros; ring.
      + apply sum_ext. intros l _. rewrite <- !sum_scal. apply sum_ext. intros; ring.
  Qed.

  (** QRFitter: the cached decomposition, if it is used, belongs to the present design and weights *)
  Definition cached m (s s1 : fst8) (weights : option vec) (fi : list nat) (w : vec) : Prop :=
    forall qq, f_qr s = Some qq -> weights = None -> exists M A, qq = (length fi, rows m s, M) /\ qrinv (rows m s) (length fi) A = Some M /\
      forall i k, (i < rows m s)%nat -> (k < length fi)%nat -> A i k = getDesign m s (f_par s1) fi i k * append (m_n m) w (fun i => sqrt (f_nwgt s i)) i.

  Lemma qrfit_optimum m off D y weights acc keep s r s' : qrsolver qrinv -> linear m off D -> made m s -> dict keep -> (0 < m_np m)%nat ->
    (forall i, (i < f_nrow s)%nat -> 0 <= f_nwgt s i) ->
    (forall s1 fi w, fitprolog m weights acc keep s = Ret (fi, w, s1) -> cached m s s1 weights fi w /\
      forall i, (i < f_nrow s)%nat -> sum (m_np m) (fun j => f_ndf s i j * place fi zeros 0 (f_par s1) j) = 0) ->
    qrfit qrinv m y weights acc keep s = (r, s') -> (exists p, r = Ret p) \/ r = Err ValueError ->
    exists fi s1 w q, fitprolog m weights acc keep s = Ret (fi, w, s1) /\
      f_par s' = insertParameters m q fi (f_par s1) /\ f_chi s' = Some (chisq m y w (f_par s')) /\ (forall p, r = Ret p -> p = f_par s') /\
      (f_index s' = f_index s /\ f_nrow s' = f_nrow s /\ f_ndf s' = f_ndf s /\ f_nwgt s' = f_nwgt s) /\
      (exists M A, f_qr s' = Some (length fi, rows m s, M) /\ qrinv (rows m s) (length fi) A = Some M /\
        forall i k, (i < rows m s)%nat -> (k < length fi)%nat -> A i k = getDesign m s (f_par s1) fi i k * append (m_n m) w (fun i => sqrt (f_nwgt s i)) i) /\
      forall p', (forall j, (j < m_np m)%nat -> ~ In j fi -> p' j = f_par s' j) ->
        goal m s y (fun i => w i ^ 2) (f_par s') <= goal m s y (fun i => w i ^ 2) p'.
  Proof.
    intros QS L MD DK NP NW NN E OK. unfold qrfit in E. destruct (fitprolog m weights acc keep s) as [[[fi w] s1]|e] eqn:EP.
    2:{ injection E as <- <-. destruct OK as [[p Hp]|Hp]; [discriminate|]. unfold fitprolog in EP. destruct keep as [kp|].
        - cbn [keepFixed] in EP. destruct (forallb _ (keys kp)); [discriminate|]. congruence.
        - destruct (f_index (set_sumw s _)); discriminate. }
    destruct (prolog_spec _ _ _ _ _ _ _ _ MD DK EP) as (WF & FI & -> & E1 & E2 & E3 & E4 & E5 & EI & FP & KP).
    destruct (NN s1 fi _ eq_refl) as [CH NZ]. clear NN.
    destruct (Nat.eqb_spec (m_np m) 0); [lia|].
    set (w := fitWgts weights acc) in *.
    assert (RW : rows m s1 = rows m s) by (unfold rows; rewrite E1; reflexivity).
    destruct (1 <? f_nrow s1)%nat; [injection E as <- <-; destruct OK as [[p Hp]|Hp]; discriminate|].
    set (ws := append (m_n m) w (fun i => sqrt (f_nwgt s1 i))) in *.
    set (yc := fun i => append (m_n m) (fun i => y i - m_res m (place fi zeros 0 (f_par s1)) i) (f_ndat s1) i * ws i) in *.
    match type of E with context [match ?x with Some _ => _ | None => (Err LinAlgError, _) end] => set (nq := x) in E end.
    assert (NQ : nq = None \/ exists M A, nq = Some (length fi, rows m s, M) /\ qrinv (rows m s) (length fi) A = Some M /\
      forall i k, (i < rows m s)%nat -> (k < length fi)%nat -> A i k = getDesign m s (f_par s1) fi i k * append (m_n m) w (fun i => sqrt (f_nwgt s i)) i).
    { assert (FRESH : (match qrinv (rows m s1) (length fi) (fun i k => getDesign m s1 (f_par s1) fi i k * ws i) with Some q => Some (length fi, rows m s1, q) | None => None end) = None \/
        exists M A, (match qrinv (rows m s1) (length fi) (fun i k => getDesign m s1 (f_par s1) fi i k * ws i) with Some q => Some (length fi, rows m s1, q) | None => None end) = Some (length fi, rows m s, M) /\ qrinv (rows m s) (length fi) A = Some M /\
        forall i k, (i < rows m s)%nat -> (k < length fi)%nat -> A i k = getDesign m s (f_par s1) fi i k * append (m_n m) w (fun i => sqrt (f_nwgt s i)) i).
      { rewrite RW. destruct (qrinv (rows m s) _ _) as [M|] eqn:EM; [right; do 2 eexists; split; [reflexivity|]; split; [exact EM|]|left; reflexivity].
        intros i k Hi Hk. unfold ws, getDesign. rewrite E2, E4. reflexivity. }
      unfold nq. rewrite E5. destruct (f_qr s) as [qq|] eqn:EQ; [|exact FRESH]. destruct weights as [wt|]; [exact FRESH|].
      right. destruct (CH qq EQ eq_refl) as (M & A & -> & H1 & H2). exists M, A. auto. }
    destruct NQ as [NQ|(M & A & NQ & EM & HA)].
    { rewrite NQ in E. injection E as <- <-. destruct OK as [[p Hp]|Hp]; discriminate. }
    rewrite NQ in E. cbn [rows set_qr f_nrow] in E. fold (rows m s1) in E.
    change (rows m (set_qr s1 (Some (length fi, rows m s, M)))) with (rows m s1) in E. rewrite RW, Nat.eqb_refl, Nat.eqb_refl in E. cbn [negb orb] in E. cbn zeta in E.
    set (q := fun k => sum (rows m s) (fun i => M k i * yc i)) in *.
    set (pp := if (length fi =? m_np m)%nat then q else place fi q 0 (f_par (set_qr s1 (Some (length fi, rows m s, M))))) in *.
    unfold chiSquared in E.
    change ((match (if Rle_dec (chisq m y w pp) 0 then Err ValueError else Ret (chisq m y w pp)) with Ret _ => Ret pp | Err e => Err e end,
      set_chi (set_par (set_qr s1 (Some (length fi, rows m s, M))) pp) (chisq m y w pp)) = (r, s')) in E.
    exists fi, s1, w, q. split; [reflexivity|].
    assert (ES : s' = set_chi (set_par (set_qr s1 (Some (length fi, rows m s, M))) pp) (chisq m y w pp)) by congruence.
    assert (ER : forall p, r = Ret p -> p = pp).
    { intros p Hp. subst r. destruct (Rle_dec _ 0) in E; [discriminate|]. congruence. }
    rewrite ES. cbn [f_par set_chi set_par set_qr f_chi f_index f_nrow f_ndf f_nwgt f_qr]. clear E ES. split; [reflexivity|]. split; [reflexivity|]. split; [exact ER|]. split; [auto|].
    split; [exists M, A; auto|]. clear ER OK.
    intros p' K.
    assert (PP : forall j, (j < m_np m)%nat -> pp j = place fi q 0 (f_par s1) j) by (intros j Hj; change pp with (insertParameters m q fi (f_par s1)); apply insert_place; assumption).
    rewrite (goal_ext m off D s y _ pp (place fi q 0 (f_par s1)) L PP). rewrite !goal_resid.
    rewrite (optimum m off D s y fi q (f_par s1) (f_par s1) (fun i => w i ^ 2) (f_nwgt s) p' L WF).
    - match goal with |- ?a <= ?a + ?b => assert (0 <= b); [|lra] end. apply sum_nonneg. intros i Hi. apply Rmult_le_pos; [|apply pow2_ge_0].
      unfold append. destruct (Nat.ltb_spec i (m_n m)); [apply pow2_ge_0|]. apply NW. unfold rows in Hi. lia.
    - exact NZ.
    - intros i Hi. unfold append. destruct (Nat.ltb_spec i (m_n m)); [apply pow2_ge_0|]. apply NW. unfold rows in Hi. lia.
    - intros k Hk. pose proof (qr_normal _ _ _ _ yc QS EM k Hk) as NE. rewrite <- NE. apply sum_ext. intros i Hi.
      rewrite (resid_place m off D s y fi q (f_par s1) (f_par s1) i L WF Hi NZ).
      rewrite (HA i k Hi Hk).
      rewrite (sum_ext (length fi) (fun l => A i l * _) (fun l => append (m_n m) w (fun i => sqrt (f_nwgt s i)) i * (getDesign m s (f_par s1) fi i l * q l))) by (intros l Hl; rewrite (HA i l Hi Hl); unfold q; ring).
      rewrite sum_scal. unfold yc, ws. rewrite E3, E4.
      assert (WS : append (m_n m) (fun i => w i ^ 2) (f_nwgt s) i = append (m_n m) w (fun i => sqrt (f_nwgt s i)) i * append (m_n m) w (fun i => sqrt (f_nwgt s i)) i).
      { unfold append. destruct (Nat.ltb_spec i (m_n m)); [ring|]. symmetry. apply sqrt_sqrt. apply NW. unfold rows in Hi. lia. }
      rewrite WS. ring.
    - intros j Hj Ho. rewrite K by assumption. rewrite PP by assumption. apply place_out. exact Ho.
  Qed.
End Solve.
