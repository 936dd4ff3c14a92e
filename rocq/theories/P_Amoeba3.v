(** Lemmas about the amoeba at temperature zero. *)
From Coq Require Import List Arith Reals Bool Lia Lra.
From Verif Require Import M_Order P_Order M_Fitter M_Amoeba P_Amoeba P_Amoeba2.
Import ListNotations.
Local Open Scope R_scope.
Set Default Proof Using "Type".

(** ** select *)
Record selok (ys : list R) (m : nat) (z : sel) : Prop := mkOk
  { k_lo : (z_ilo z < m)%nat; k_hi : (z_ihi z < m)%nat; k_ne : z_ilo z <> z_ihi z;
    k_vlo : nth (z_ilo z) ys 0 = z_lo z; k_vhi : nth (z_ihi z) ys 0 = z_hi z;
    k_min : forall j, (j < m)%nat -> z_lo z <= nth j ys 0; k_max : forall j, (j < m)%nat -> nth j ys 0 <= z_hi z;
    k_nhi : forall j, (j < m)%nat -> j <> z_ihi z -> nth j ys 0 <= z_nhi z;
    k_ex : exists j, (j < m)%nat /\ j <> z_ihi z /\ nth j ys 0 = z_nhi z }.

Lemma select1_ok ys m z : selok ys m z -> selok ys (S m) (select1 z (m, nth m ys 0)).
Proof.
  intros [a b c d e f g h (j0 & i1 & i2 & i3)]. unfold select1. set (y := nth m ys 0) in *.
  assert (lohi : z_lo z <= z_hi z) by (rewrite <- d; apply g; auto).
  assert (nh : z_lo z <= z_nhi z) by (rewrite <- i3; apply f; auto).
  assert (nh2 : z_nhi z <= z_hi z) by (rewrite <- i3; apply g; auto).
  assert (C : forall j, (j < S m)%nat -> (j < m)%nat \/ j = m) by (intros; lia).
  destruct (Rle_dec y (z_lo z)) as [l1|l1]; destruct (Rlt_dec (z_hi z) y) as [l2|l2]; try lra;
    [destruct (Rlt_dec (z_nhi z) y) as [l3|l3]; try lra| |destruct (Rlt_dec (z_nhi z) y) as [l3|l3]]; constructor; cbn [z_ilo z_ihi z_lo z_nhi z_hi]; auto; try lia;
    try (intros j J; destruct (C j J) as [J1| ->]; fold y;
         [first [specialize (f j J1); lra|specialize (g j J1); lra]|lra]; fail).
  - intros j J N. destruct (C j J) as [J1| ->]; [auto|]. fold y. lra.
  - exists j0. repeat split; auto; lia.
  - intros j J N. destruct (C j J) as [J1| ->]; [auto|congruence].
  - exists (z_ihi z). repeat split; auto; lia.
  - intros j J N. destruct (C j J) as [J1| ->]; [specialize (h j J1 N); lra|]. fold y. lra.
  - exists m. repeat split; auto. lia.
  - intros j J N. destruct (C j J) as [J1| ->]; [auto|]. fold y. lra.
  - exists j0. repeat split; auto; lia.
Qed.

Lemma select_ok ys : (2 <= length ys)%nat -> selok ys (length ys) (select ys).
Proof.
  destruct ys as [|y0 [|y1 r]]; cbn [length]; try lia. intros _. unfold select.
  assert (H : forall r pre z, selok (pre ++ r) (length pre) z -> selok (pre ++ r) (length (pre ++ r)) (fold_left select1 (combine (seq (length pre) (length r)) r) z)).
  { clear. induction r as [|y r IH]; intros pre z Z; [rewrite app_nil_r in *; exact Z|]. cbn [length seq combine fold_left].
    replace (pre ++ y :: r) with ((pre ++ [y]) ++ r) in * by (rewrite <- app_assoc; reflexivity).
    replace (S (length pre)) with (length (pre ++ [y])) by (rewrite app_length; cbn; lia). apply IH.
    rewrite app_length. cbn [length]. replace (length pre + 1)%nat with (S (length pre)) by lia.
    assert (K := select1_ok _ _ _ Z). rewrite <- app_assoc in K. cbn [app] in K. rewrite nth_middle in K.
    rewrite <- app_assoc. exact K. }
  apply (H r [y0; y1]). cbn [length].
  assert (C : forall j, (j < 2)%nat -> j = 0%nat \/ j = 1%nat) by (intros; lia).
  destruct (Rlt_dec y1 y0); constructor; cbn [z_ilo z_ihi z_lo z_nhi z_hi app]; try reflexivity; try lia;
    try (intros j J; destruct (C j J) as [-> | ->]; cbn; lra);
    try (intros j J N; destruct (C j J) as [-> | ->]; cbn; try congruence; lra).
  - exists 1%nat. cbn. repeat split; try lia.
  - exists 0%nat. cbn. repeat split; try lia.
Qed.

Section Zero.
  Context (func : pt -> R) (ls : lims) (abstol reltol : option R) (maxiter0 steps : nat) (cooling : R) (rnd : nat -> R).

  Lemma fluct_zero s : a_temp s = 0 -> fluctuate rnd s = a_vals s.
  Proof.
    intros T. unfold fluctuate, logRanTemp. rewrite T.
    assert (H : forall (l : list R) a, map (fun iv : nat * R => snd iv + - 0 * ln (rnd (a_k s + fst iv)%nat + / 10 ^ 30)) (combine (seq a (length l)) l) = l).
    { induction l as [|v l IH]; intros a; [reflexivity|]. cbn [length seq combine map fst snd]. rewrite IH. f_equal. ring. }
    apply H.
  Qed.

  Definition uniq (s : ast) : Prop := forall p q u, In (p, u) (a_seen s) -> In (q, u) (a_seen s) -> p = q.
  Lemma uniq_incl s s' : incl (a_seen s) (a_seen s') -> uniq s' -> uniq s.
  Proof. intros I U p q u P Q. eapply U; apply I; eauto. Qed.

  Definition N := S (length ls).
  Record phA (s : ast) : Prop := mkPA
    { p_temp : a_temp s = 0; p_inv : inv func s; p_shape : shaped ls s; p_rowok : rowok s; p_lim : lim0 ls s;
      p_seen : forall j, (j < N)%nat -> In (row s j, val s j) (a_seen s);
      p_row : forall k, a_xopt s = Row k -> val s k = a_fopt s }.

  Lemma phA_true s j : phA s -> (j < N)%nat -> func (row s j) = val s j.
  Proof. intros P J. symmetry. eapply (p_inv s P). apply P; auto. Qed.

  Lemma phA_xopt s : phA s -> func (xopt s) = a_fopt s.
  Proof.
    intros P. unfold xopt. destruct (a_xopt s) as [p|k] eqn:E.
    - symmetry. eapply (p_inv s P). apply P. exact E.
    - rewrite <- (p_row s P k E). apply phA_true; auto. assert (B := p_rowok s P k E). destruct (p_shape s P) as (_ & e & _). unfold N. lia.
  Qed.

  Lemma phA_low s j : phA s -> (j < N)%nat -> a_fopt s <= val s j.
  Proof. intros P J. apply (p_inv s P). apply (i_vals _ _ (p_inv s P)). unfold val. apply nth_In. destruct (p_shape s P) as (e & _). unfold N in J. lia. Qed.

  Lemma N_rows s : shaped ls s -> length (a_rows s) = N /\ length (a_vals s) = N.
  Proof. intros (a & b & _). unfold N. auto. Qed.

  (** one trial *)
  Lemma trial_seen s i y f m : incl (a_seen s) (a_seen (snd (trialStep func ls rnd s i y f m))).
  Proof. unfold trialStep. repeat destruct (Rlt_dec _ _); cbn; apply incl_appl, incl_refl. Qed.

  Lemma trial_other s i y f m j : j <> i -> row (snd (trialStep func ls rnd s i y f m)) j = row s j /\ val (snd (trialStep func ls rnd s i y f m)) j = val s j.
  Proof.
    intros NE. unfold trialStep, row, val. repeat destruct (Rlt_dec _ _); cbn; auto; rewrite ?upd_nth_d;
      (replace (j =? i)%nat with false by (symmetry; apply Nat.eqb_neq; auto)); cbn; auto.
  Qed.

  Lemma trial_A s i y f m : phA s -> (i < N)%nat -> a_fopt s <= y -> (a_xopt s = Row i -> y <= a_fopt s) ->
    let s' := snd (trialStep func ls rnd s i y f m) in
    phA s' /\ a_fopt s' <= y /\ (a_xopt s' = Row i -> y <= a_fopt s') /\ (forall k, a_xopt s' = Row k -> a_xopt s = Row k /\ a_fopt s' = a_fopt s) /\
    a_iter s' = a_iter s.
  Proof.
    intros P I Y X. cbv zeta.
    assert (I' := trial_inv func ls rnd s i y f m (p_inv s P)).
    assert (L' := trial_len func ls rnd s i y f m).
    assert (RK' := trial_rowok func ls rnd s i y f m (p_rowok s P)).
    assert (LM' : lim0 ls (snd (trialStep func ls rnd s i y f m))) by (apply trial_lim0; [apply P|destruct (p_shape s P) as (_ & e & _); unfold N in I; lia]).
    assert (O' := trial_other s i y f m).
    destruct (N_rows s (p_shape s P)) as [NR NV].
    revert I' L' RK' LM' O'. unfold trialStep. set (p := stayInLimits _ _ _).
    set (a1 := moved (see func s p) m).
    assert (TT : logRanTemp rnd 0 (a_k a1) = 0) by (unfold logRanTemp; ring).
    set (s1 := if Rlt_dec (func p) (a_fopt a1) then setbest a1 (func p) (Own p) else a1).
    assert (T1 : a_temp s1 = 0) by (unfold s1; destruct (Rlt_dec _ _); apply P).
    assert (K1 : a_k s1 = a_k a1) by (unfold s1; destruct (Rlt_dec _ _); reflexivity).
    replace (func p - logRanTemp rnd (a_temp s1) (a_k s1)) with (func p) by (rewrite T1, K1, TT; ring).
    assert (F1 : a_fopt s1 <= y /\ (forall k, a_xopt s1 = Row k -> a_xopt s = Row k /\ a_fopt s1 = a_fopt s /\ a_fopt s <= func p) /\ a_seen s1 = a_seen s ++ [(p, func p)] /\ a_rows s1 = a_rows s /\ a_vals s1 = a_vals s /\ a_iter s1 = a_iter s).
    { unfold s1. destruct (Rlt_dec _ _) as [q|q]; change (a_fopt a1) with (a_fopt s) in q; cbn; (repeat match goal with |- _ /\ _ => split end); auto; try lra; intros; try congruence.
      repeat split; auto; lra. }
    destruct F1 as (F1 & F2 & F3 & F4 & F5 & F6).
    intros I' L' RK' LM' O'.
    destruct (Rlt_dec (func p) y) as [q|q]; cbn [snd] in *.
    - assert (NI : a_xopt s1 <> Row i). { intros E. destruct (F2 i E) as (E1 & _ & E2). specialize (X E1). lra. }
      split; [constructor; auto|].
      + destruct L' as [a b]. unfold shaped. rewrite a, b. apply P.
      + intros j J. destruct (Nat.eq_dec j i) as [->|NE].
        * cbn [setrow setsum draw a_seen]. unfold row, val. cbn [setrow setsum draw a_rows a_vals]. rewrite F3, F4, F5, !upd_nth_d, Nat.eqb_refl, NR, NV.
          replace (i <? N)%nat with true by (symmetry; apply Nat.ltb_lt; auto). cbn. apply in_or_app. right; left; auto.
        * destruct (O' j NE) as [-> ->]. cbn [setrow setsum draw a_seen]. rewrite F3. apply in_or_app. left. apply P; auto.
      + intros k E. cbn in E. assert (NE : k <> i) by congruence. destruct (O' k NE) as [_ ->]. cbn. destruct (F2 k E) as (E1 & -> & _). apply P; auto.
      + cbn. split; [auto|]. split; [intros E; congruence|]. split; [intros k E; destruct (F2 k E) as (? & ? & _); auto|auto].
    - split; [constructor; auto|].
      + destruct L' as [a b]. unfold shaped. rewrite a, b. apply P.
      + intros j J. unfold row, val. cbn [draw a_rows a_vals a_seen]. rewrite F3, F4, F5. apply in_or_app. left. apply P; auto.
      + intros k E. cbn in E. destruct (F2 k E) as (E1 & E2 & _). unfold val. cbn. rewrite F5, E2. apply P; auto.
      + cbn. split; [auto|]. split; [intros E; destruct (F2 i E) as (E1 & -> & _); auto|]. split; [intros k E; destruct (F2 k E) as (? & ? & _); auto|auto].
  Qed.

  (** shrink *)
  Lemma inflates_seen l : forall y s, incl (a_seen s) (a_seen (snd (fold_left (inflate2 func) l (y, s)))).
  Proof.
    induction l as [|i l IH]; intros y s; [apply incl_refl|]. cbn [fold_left].
    destruct (inflate2 func (y, s) i) as [y1 s1] eqn:E. eapply incl_tran; [|apply IH]. revert E. unfold inflate2.
    repeat destruct (Rlt_dec _ _); intros E; injection E as <- <-; cbn; apply incl_appl, incl_refl.
  Qed.
  Lemma inflate_seen s i f m : incl (a_seen s) (a_seen (snd (inflateSimplex func ls s i f m))).
  Proof.
    unfold inflateSimplex. match goal with |- context [fold_left (inflate2 func) ?l (?y, ?s1)] => assert (H := inflates_seen l y s1) end.
    destruct (fold_left _ _ _) as [y2 s2]. exact H.
  Qed.

  Lemma upd_same {A} (d : A) l : forall i, upd i (nth i l d) l = l.
  Proof. induction l as [|a l IH]; intros [|i]; cbn; auto. rewrite IH. reflexivity. Qed.

  Lemma inflates_ok l : forall y s done, (forall i, In i l -> (i < N)%nat) -> length (a_vals s) = N -> length (a_rows s) = N ->
    (forall j, In j done -> In (row s j, val s j) (a_seen s)) ->
    (forall k, a_xopt s = Row k -> func (row s k) = a_fopt s) ->
    let s' := snd (fold_left (inflate2 func) l (y, s)) in
    a_rows s' = a_rows s /\ (forall j, In j (done ++ l) -> In (row s' j, val s' j) (a_seen s')) /\
    (forall k, a_xopt s' = Row k -> func (row s' k) = a_fopt s') /\ a_temp s' = a_temp s /\ a_iter s' = a_iter s /\
    (forall j, ~ In j l -> val s' j = val s j).
  Proof.
    induction l as [|i l IH]; intros y s done B LV LR D X; [cbn; rewrite app_nil_r; repeat split; auto|]. cbn [fold_left].
    destruct (inflate2 func (y, s) i) as [y1 s1] eqn:E.
    assert (Bi : (i < N)%nat) by (apply B; left; auto).
    assert (K : a_rows s1 = a_rows s /\ a_vals s1 = upd i (func (row s i)) (a_vals s) /\ a_seen s1 = a_seen s ++ [(row s i, func (row s i))] /\
                (forall k, a_xopt s1 = Row k -> func (row s k) = a_fopt s1) /\ a_temp s1 = a_temp s /\ a_iter s1 = a_iter s).
    { revert E. unfold inflate2. assert (U : upd i (row s i) (a_rows s) = a_rows s) by (unfold row; apply upd_same).
      repeat destruct (Rlt_dec _ _); intros E; injection E as <- <-; cbn; rewrite ?U; repeat split; auto. intros k E. injection E as <-. reflexivity. }
    destruct K as (K1 & K2 & K3 & K4 & K5 & K6).
    destruct (IH y1 s1 (done ++ [i])) as (J1 & J2 & J3 & J4 & J5 & J6).
    - intros; apply B; right; auto.
    - rewrite K2, upd_length. auto.
    - rewrite K1; auto.
    - intros j J. unfold row, val. rewrite K1, K2, K3, upd_nth_d, LV. apply in_or_app.
      destruct (Nat.eq_dec j i) as [->|NE].
      + right. rewrite Nat.eqb_refl. replace (i <? N)%nat with true by (symmetry; apply Nat.ltb_lt; auto). left; reflexivity.
      + left. replace (j =? i)%nat with false by (symmetry; apply Nat.eqb_neq; auto). cbn. apply in_app_or in J. destruct J as [J|[J|[]]]; [|congruence]. apply D; auto.
    - intros k E2. unfold row. rewrite K1. apply K4. auto.
    - cbv zeta. rewrite J1, J4, J5, K1, K5, K6. repeat split; auto.
      + intros j J. apply J2. rewrite <- app_assoc. exact J.
      + intros j J. cbn in J. rewrite J6 by (intros Q; apply J; right; exact Q). unfold val. rewrite K2, upd_nth_d. replace (j =? i)%nat with false; [reflexivity|].
        symmetry. apply Nat.eqb_neq. intros ->. apply J; auto.
  Qed.

  Lemma lin_self f p : lin f p (1 - f) p = p.
  Proof. unfold lin. induction p as [|x p IH]; [reflexivity|]. cbn. f_equal; [ring|exact IH]. Qed.

  Lemma inflate_A s i f m : phA s -> (i < N)%nat -> 0 <= f <= 1 -> uniq (snd (inflateSimplex func ls s i f m)) ->
    (forall k, a_xopt s = Row k -> val s i = a_fopt s) ->
    phA (snd (inflateSimplex func ls s i f m)) /\ a_iter (snd (inflateSimplex func ls s i f m)) = a_iter s.
  Proof.
    intros P I F U X. destruct (N_rows s (p_shape s P)) as [NR NV].
    assert (I' := inflate_inv func ls s i f m (p_inv s P) ltac:(lia)).
    assert (L' := inflate_len func ls s i f m).
    assert (RK' := inflate_rowok func ls s i f m (p_rowok s P) ltac:(lia)).
    assert (LM' := inflate_lim0 func ls s i f m (p_lim s P) ltac:(lia) F).
    assert (U0 := uniq_incl _ _ (inflate_seen s i f m) U).
    revert I' L' RK' LM'. unfold inflateSimplex. set (rows := map _ _). set (milo := seq 0 i ++ _).
    set (s1 := mkA rows _ _ _ _ _ _ _ _ _).
    assert (RL : length rows = N) by (unfold rows; rewrite map_length, combine_length, seq_length; lia).
    assert (RN : forall j, (j < N)%nat -> nth j rows [] = if (j =? i)%nat then row s j else inflate1 ls f (row s i) (row s j)).
    { intros j J. unfold rows, row. clear -J NR.
      assert (G : forall (l : list pt) a j, (j < length l)%nat -> nth j (map (fun ip : nat * pt => if (fst ip =? i)%nat then snd ip else inflate1 ls f (nth i (a_rows s) []) (snd ip)) (combine (seq a (length l)) l)) [] =
         if (a + j =? i)%nat then nth j l [] else inflate1 ls f (nth i (a_rows s) []) (nth j l [])).
      { induction l as [|q l IH]; intros a [|k] K; cbn in K |- *; try lia; [rewrite Nat.add_0_r; reflexivity|]. rewrite IH by lia. replace (S a + k)%nat with (a + S k)%nat by lia. reflexivity. }
      rewrite <- NR in J. apply (G (a_rows s) 0%nat j J). }
    assert (RI : row s1 i = row s i) by (unfold row at 1; change (a_rows s1) with rows; rewrite RN by auto; rewrite Nat.eqb_refl; reflexivity).
    assert (X1 : forall k, a_xopt s1 = Row k -> func (row s1 k) = a_fopt s1).
    { intros k E. cbn in E. change (a_fopt s1) with (a_fopt s). assert (B := p_rowok s P k E).
      assert (E2 : row s1 k = row s k).
      { unfold row at 1. change (a_rows s1) with rows. rewrite RN by lia. destruct (k =? i)%nat; [reflexivity|].
        assert (E3 : row s k = row s i). { apply (U0 _ _ (a_fopt s)); [rewrite <- (p_row s P k E)|rewrite <- (X k E)]; apply P; lia. }
        rewrite E3. unfold inflate1. rewrite lin_self. apply stay_id; [apply row_in; [apply P|lia]|]. apply within_len, row_in; [apply P|lia]. }
      rewrite E2, <- (p_row s P k E). apply phA_true; auto; lia. }
    destruct (inflates_ok milo (val s i) s1 [i]) as (J1 & J2 & J3 & J4 & J5 & J6).
    - unfold milo. intros j J. apply in_app_or in J. destruct J as [J|J]; apply in_seq in J; lia.
    - exact NV.
    - exact RL.
    - intros j [<-|[]]. rewrite RI. change (a_seen s1) with (a_seen s). change (val s1 i) with (val s i). apply P; auto.
    - exact X1.
    - destruct (fold_left _ _ _) as [y2 s2]. cbn [snd] in *. intros I' L' RK' LM'. split; [|cbn; exact J5]. constructor; auto.
      + cbn. rewrite J4. apply P.
      + destruct L' as [a b]. unfold shaped. rewrite a, b. apply P.
      + intros j J. apply (J2 j). destruct (Nat.eq_dec j i) as [->|NE]; [left; auto|]. apply in_or_app; right. unfold milo. apply in_or_app.
        rewrite !in_seq. lia.
      + intros k E. cbn in E |- *. assert (B := RK' k E). cbn in B. rewrite J1 in B. cbn in B. rewrite RL in B.
        transitivity (func (row s2 k)); [|apply J3; auto].
        assert (Q : In (row s2 k, val s2 k) (a_seen s2)). { apply (J2 k). destruct (Nat.eq_dec k i) as [->|NE]; [left; auto|]. apply in_or_app; right. unfold milo. apply in_or_app. rewrite !in_seq. lia. }
        apply (i_true _ _ I') in Q. exact Q.
  Qed.

  (** ** the end *)
  Definition quiet (s : ast) : Prop :=
    let z := select (a_vals s) in
    stops abstol reltol (z_lo z) (z_hi z) = true /\
    ~ (match abstol, reltol with Some a, _ => a | None, Some r => r | None, None => 0 end) < Rabs (a_fopt s - z_lo z) /\ a_iter s <> 0%nat.

  Record phB (s : ast) : Prop := mkPB
    { q_temp : a_temp s = 0; q_shape : shaped ls s; q_xopt : func (xopt s) = a_fopt s;
      q_row : forall k, a_xopt s = Row k -> forall j, (j < N)%nat -> val s j = z_lo (select (a_vals s)) -> func (row s j) = a_fopt s;
      q_quiet : quiet s }.

  Lemma tol_pos ylo yhi : stops abstol reltol ylo yhi = true -> 0 <= match abstol, reltol with Some a, _ => a | None, Some r => r | None, None => 0 end.
  Proof.
    unfold stops. intros H. apply andb_prop in H. destruct H as [A B]. assert (P := Rabs_pos (yhi - ylo)). destruct abstol as [a|].
    - destruct (Rlt_dec _ _); [lra|discriminate].
    - destruct reltol as [r|]; [|lra]. destruct (Rlt_dec _ _) as [q|]; [|discriminate].
      assert (0 < Rmax (Rabs yhi + Rabs ylo) (/ 10 ^ 20)). { eapply Rlt_le_trans; [|apply Rmax_r]. apply Rinv_0_lt_compat, pow_lt. lra. }
      assert (0 <= Rabs (yhi - ylo) / Rmax (Rabs yhi + Rabs ylo) (/ 10 ^ 20)) by (apply Rmult_le_pos; [auto|apply Rlt_le, Rinv_0_lt_compat; auto]). lra.
  Qed.

  Lemma sel_zero s : shaped ls s -> selok (a_vals s) N (select (a_vals s)).
  Proof. intros S. destruct (N_rows s S) as [_ E]. rewrite <- E. apply select_ok. destruct S as (? & ? & ?). lia. Qed.

  (** swapping two values keeps the lowest and the highest *)
  Lemma swap_sel s i : shaped ls s -> (i < N)%nat ->
    z_lo (select (a_vals (swap s i))) = z_lo (select (a_vals s)) /\ z_hi (select (a_vals (swap s i))) = z_hi (select (a_vals s)).
  Proof.
    intros S I. assert (Z := sel_zero s S). assert (S' : shaped ls (swap s i)) by (unfold shaped; destruct (swap_len s i) as [-> ->]; exact S).
    assert (Z' := sel_zero _ S'). destruct (N_rows s S) as [NR NV].
    destruct (0 <? i)%nat eqn:E0. 2:{ unfold swap. rewrite E0. auto. }
    assert (V : forall j, nth j (a_vals (swap s i)) 0 = if (j =? i)%nat then val s 0 else if (j =? 0)%nat then val s i else val s j).
    { intros j. unfold swap. rewrite E0. cbn [a_vals]. rewrite !upd_nth_d, upd_length, NV.
      replace (i <? N)%nat with true by (symmetry; apply Nat.ltb_lt; auto). replace (0 <? N)%nat with true by (symmetry; apply Nat.ltb_lt; unfold N; lia).
      rewrite !andb_true_r. reflexivity. }
    apply Nat.ltb_lt in E0.
    assert (E : forall j, (j < N)%nat -> exists k, (k < N)%nat /\ nth j (a_vals (swap s i)) 0 = val s k).
    { intros j J. rewrite V. destruct (j =? i)%nat; [exists 0%nat; split; [unfold N; lia|auto]|]. destruct (j =? 0)%nat; [exists i; auto|exists j; auto]. }
    assert (E' : forall j, (j < N)%nat -> exists k, (k < N)%nat /\ val s j = nth k (a_vals (swap s i)) 0).
    { intros j J. destruct (Nat.eq_dec j i) as [->|N1]; [exists 0%nat; split; [unfold N; lia|]|destruct (Nat.eq_dec j 0) as [->|N2]; [exists i; split; [auto|]|exists j; split; [auto|]]];
      rewrite V.
      - replace (0 =? i)%nat with false by (symmetry; apply Nat.eqb_neq; lia). reflexivity.
      - rewrite Nat.eqb_refl. reflexivity.
      - replace (j =? i)%nat with false by (symmetry; apply Nat.eqb_neq; lia). replace (j =? 0)%nat with false by (symmetry; apply Nat.eqb_neq; lia). reflexivity. }
    destruct Z as [a b c d e f g _ _], Z' as [a' b' c' d' e' f' g' _ _]. fold (val s (z_ilo (select (a_vals s)))) in d. fold (val s (z_ihi (select (a_vals s)))) in e.
    split; apply Rle_antisym.
    - destruct (E' _ a) as (k & K1 & K2). rewrite <- d, K2. auto.
    - destruct (E _ a') as (k & K1 & K2). rewrite <- d', K2. apply f; auto.
    - destruct (E _ b') as (k & K1 & K2). rewrite <- e', K2. apply g; auto.
    - destruct (E' _ b) as (k & K1 & K2). rewrite <- e, K2. auto.
  Qed.

  Lemma swap_row s i j : (1 <= length (a_rows s))%nat -> row (swap s i) j = if (j =? 0)%nat then row s i else row s j.
  Proof.
    intros L. unfold swap. destruct (0 <? i)%nat eqn:E0.
    - unfold row. cbn [a_rows]. rewrite upd_nth_d. replace (0 <? length (a_rows s))%nat with true by (symmetry; apply Nat.ltb_lt; lia). rewrite andb_true_r. reflexivity.
    - apply Nat.ltb_ge in E0. assert (i = 0%nat) by lia. subst. destruct (Nat.eqb_spec j 0); subst; reflexivity.
  Qed.

  Lemma swap_val s i j : length (a_vals s) = N -> (i < N)%nat -> val (swap s i) j = if (j =? i)%nat then val s 0 else if (j =? 0)%nat then val s i else val s j.
  Proof.
    intros NV I. unfold swap, val. destruct (0 <? i)%nat eqn:E0.
    - cbn [a_vals]. rewrite !upd_nth_d, upd_length, NV. replace (i <? N)%nat with true by (symmetry; apply Nat.ltb_lt; auto). replace (0 <? N)%nat with true by (symmetry; apply Nat.ltb_lt; unfold N; lia).
      rewrite !andb_true_r. reflexivity.
    - apply Nat.ltb_ge in E0. assert (i = 0%nat) by lia. subst. destruct (Nat.eqb_spec j 0); subst; reflexivity.
  Qed.

  Lemma swap_fields s i : a_fopt (swap s i) = a_fopt s /\ a_xopt (swap s i) = a_xopt s /\ a_temp (swap s i) = a_temp s /\ a_iter (swap s i) = a_iter s /\ a_seen (swap s i) = a_seen s.
  Proof. unfold swap. destruct (0 <? i)%nat; auto. Qed.

  Lemma lowest_row s : phA s -> forall k, a_xopt s = Row k -> z_lo (select (a_vals s)) = a_fopt s.
  Proof.
    intros P k E. assert (Z := sel_zero s (p_shape s P)). destruct (N_rows s (p_shape s P)) as [NR NV]. assert (B := p_rowok s P k E).
    apply Rle_antisym.
    - rewrite <- (p_row s P k E). apply (k_min _ _ _ Z). lia.
    - rewrite <- (k_vlo _ _ _ Z). apply (phA_low s); auto. apply Z.
  Qed.

  Lemma turnB s : phB s -> exists s', turn func ls abstol reltol None rnd s 0 = (true, s', 0%nat) /\ func (xopt s') = a_fopt s' /\ a_temp s' = 0 /\ a_fopt s' = a_fopt s /\ a_seen s' = a_seen s.
  Proof.
    intros [T S X RW (Q1 & Q2 & Q3)]. unfold turn. rewrite fluct_zero by auto. set (z := select (a_vals s)) in *. cbv zeta.
    set (s0 := draw s _). assert (Z := sel_zero s S). fold z in Z. destruct (N_rows s S) as [NR NV].
    destruct (swap_fields s0 (z_ilo z)) as (f1 & f2 & f3 & f4 & f5).
    rewrite Q1, f1. change (a_fopt s0) with (a_fopt s). destruct (Rlt_dec _ _) as [q|_]; [contradiction|].
    rewrite f4. change (a_iter s0) with (a_iter s). replace (a_iter s =? 0)%nat with false by (symmetry; apply Nat.eqb_neq; auto).
    exists (swap s0 (z_ilo z)). split; [reflexivity|]. rewrite f1, f3, f5. repeat split; auto.
    change (a_fopt s0) with (a_fopt s). unfold xopt. rewrite f2. change (a_xopt s0) with (a_xopt s). unfold xopt in X. destruct (a_xopt s) as [p|k] eqn:E; [auto|].
    rewrite swap_row by (change (a_rows s0) with (a_rows s); rewrite NR; unfold N; lia). destruct (k =? 0)%nat; [|exact X].
    change (row s0 (z_ilo z)) with (row s (z_ilo z)). apply (RW k eq_refl); [apply Z|apply Z].
  Qed.

  (** ** one turn *)
  Lemma turnA s tr b s' tr' : phA s -> (a_iter s = 0%nat -> stops abstol reltol (z_lo (select (a_vals s))) (z_hi (select (a_vals s))) = false) ->
    turn func ls abstol reltol None rnd s tr = (b, s', tr') -> uniq s' ->
    incl (a_seen s) (a_seen s') /\ (if b then phB s' else phA s' /\ a_iter s' <> 0%nat).
  Proof.
    intros P NF. unfold turn. rewrite fluct_zero by apply P. set (z := select (a_vals s)) in *. cbv zeta.
    set (s0 := draw s _). assert (P0 : phA s0). { destruct P as [a b0 c d [x y w] f g]. constructor; auto. - apply inv_draw; auto. - constructor; auto. }
    assert (Z : selok (a_vals s0) N z) by (apply sel_zero, P). change (a_seen s) with (a_seen s0). change (a_iter s) with (a_iter s0) in NF.
    assert (ZE : z = select (a_vals s0)) by reflexivity. clearbody s0 z. clear P. rename P0 into P. destruct (N_rows s0 (p_shape s0 P)) as [NR NV].
    destruct (stops _ _ _ _) eqn:ST.
    - assert (IT : a_iter s0 <> 0%nat) by (intros E; specialize (NF E); congruence).
      assert (TP := tol_pos _ _ ST). set (tol := match abstol with Some a => a | None => _ end) in *.
      destruct (swap_fields s0 (z_ilo z)) as (f1 & f2 & f3 & f4 & f5).
      assert (Zi : (z_ilo z < N)%nat) by apply Z.
      assert (SHS : shaped ls (swap s0 (z_ilo z))) by (unfold shaped; destruct (swap_len s0 (z_ilo z)) as [-> ->]; apply P).
      assert (LMS : lim0 ls (swap s0 (z_ilo z))).
      { assert (W := row_in ls s0 (z_ilo z) (p_lim s0 P) ltac:(lia)). destruct (p_lim s0 P) as [x y w]. unfold swap. destruct (0 <? z_ilo z)%nat; constructor; cbn [a_rows a_seen a_sum]; auto. apply Forall_upd; auto. }
      assert (IS : inv func (swap s0 (z_ilo z))) by (apply swap_inv; [apply P|rewrite NV; unfold N; lia|lia]).
      rewrite f1, f4.
      destruct (Rlt_dec _ _) as [TL|TL]; [|replace (a_iter s0 =? 0)%nat with false by (symmetry; apply Nat.eqb_neq; auto)]; intros E U; injection E as <- <- <-.
      + assert (XO : exists p, a_xopt s0 = Own p).
        { destruct (a_xopt s0) as [p|k] eqn:E; [eauto|]. exfalso. rewrite ZE, (lowest_row s0 P k E), Rminus_eq_0, Rabs_R0 in TL. lra. }
        destruct XO as (p & XO).
        set (s1 := swap s0 (z_ilo z)) in *. assert (XP : xopt s1 = p) by (unfold xopt; rewrite f2, XO; reflexivity). rewrite XP in *.
        destruct (N_rows s1 SHS) as [NR1 NV1].
        assert (RS : forall j, (j < N)%nat -> row (setrow s1 (z_ilo z) p (a_fopt s0)) j = (if (j =? z_ilo z)%nat then p else if (j =? 0)%nat then row s0 (z_ilo z) else row s0 j) /\
                               val (setrow s1 (z_ilo z) p (a_fopt s0)) j = (if (j =? z_ilo z)%nat then a_fopt s0 else if (j =? 0)%nat then val s0 (z_ilo z) else val s0 j)).
        { intros j J. unfold row at 1, val at 1. cbn [setrow a_rows a_vals]. rewrite !upd_nth_d, NR1, NV1.
          replace (z_ilo z <? N)%nat with true by (symmetry; apply Nat.ltb_lt; auto). rewrite !andb_true_r.
          fold (row s1 j) (val s1 j). unfold s1. rewrite swap_row by (rewrite NR; unfold N; lia). rewrite swap_val by auto.
          destruct (j =? z_ilo z)%nat; auto. }
        split; [cbn; rewrite f5; apply incl_refl|]. split; [|cbn; rewrite f4; exact IT].
        constructor.
        * cbn. rewrite f3. apply P.
        * apply inv_moved. eapply inv_same; [..|exact IS]; try reflexivity. intros v H. cbn in H. apply upd_In in H. destruct H as [->|H]; [rewrite <- f1; apply IS|apply IS; auto].
        * unfold shaped. cbn. rewrite !upd_length. exact SHS.
        * unfold rowok. cbn. rewrite f2, XO. congruence.
        * destruct LMS as [x y w]. constructor; cbn; auto. apply Forall_upd; auto.
          destruct (p_lim s0 P) as [_ S2 _]. rewrite Forall_forall in S2. apply S2. apply in_map_iff. exists (p, a_fopt s0). split; [reflexivity|apply (p_inv s0 P); auto].
        * intros j J. cbn [moved a_seen setrow]. rewrite f5. change (row (moved (setrow s1 (z_ilo z) p (a_fopt s0)) Replace) j) with (row (setrow s1 (z_ilo z) p (a_fopt s0)) j).
          change (val (moved (setrow s1 (z_ilo z) p (a_fopt s0)) Replace) j) with (val (setrow s1 (z_ilo z) p (a_fopt s0)) j).
          destruct (RS j J) as [-> ->]. destruct (j =? z_ilo z)%nat; [apply (p_inv s0 P); auto|]. destruct (j =? 0)%nat; apply P; auto.
        * intros k E. cbn in E. rewrite f2, XO in E. discriminate.
      + split; [rewrite f5; apply incl_refl|]. 
        destruct (swap_sel s0 (z_ilo z) (p_shape s0 P) Zi) as [SL SHI].
        constructor.
        * rewrite f3. apply P.
        * exact SHS.
        * rewrite f1. assert (X := phA_xopt s0 P). unfold xopt in *. rewrite f2. destruct (a_xopt s0) as [p|k] eqn:E; [exact X|].
          rewrite swap_row by (rewrite NR; unfold N; lia). destruct (k =? 0)%nat; [|exact X].
          rewrite (phA_true s0) by auto. rewrite <- (lowest_row s0 P k E), <- ZE. apply Z.
        * intros k E j J V. rewrite f2 in E. assert (LO := lowest_row s0 P k E). rewrite SL in V. rewrite swap_val in V by auto.
          rewrite f1, swap_row by (rewrite NR; unfold N; lia). rewrite <- ZE in LO, V.
          assert (VL : val s0 (z_ilo z) = z_lo z) by apply Z.
          destruct (Nat.eqb_spec j 0) as [->|N0]; [rewrite (phA_true s0) by auto; congruence|].
          rewrite (phA_true s0) by auto. destruct (Nat.eqb_spec j (z_ilo z)) as [->|N1]; congruence.
        * unfold quiet. rewrite SL, SHI, <- ZE, f1, f4. auto.
    - assert (Zh : (z_ihi z < N)%nat) by apply Z. assert (Zi : (z_ilo z < N)%nat) by apply Z.
      assert (ZV : val s0 (z_ihi z) = z_hi z) by apply Z.
      assert (Y0 : a_fopt s0 <= z_hi z) by (rewrite <- ZV; apply phA_low; auto).
      assert (X0 : a_xopt s0 = Row (z_ihi z) -> z_hi z <= a_fopt s0) by (intros E; rewrite <- ZV, (p_row s0 P _ E); lra).
      assert (Tr := trial_A s0 (z_ihi z) (z_hi z) (-1) Reflect P Zh Y0 X0). assert (TS := trial_seen s0 (z_ihi z) (z_hi z) (-1) Reflect).
      assert (TO := trial_other s0 (z_ihi z) (z_hi z) (-1) Reflect (z_ilo z) (k_ne _ _ _ Z)).
      destruct (trialStep func ls rnd s0 (z_ihi z) (z_hi z) (-1) Reflect) as [y1 s1]. cbn [snd] in *. destruct Tr as (P1 & Y1 & X1 & R1 & IT1).
      assert (TK : forall s2, phA s2 -> phA (tickiter s2) /\ a_iter (tickiter s2) <> 0%nat).
      { intros s2 [a b0 c d [x y w] f g]. split; [|cbn; lia]. constructor; auto. - eapply inv_same; [..|exact b0]; try reflexivity. apply b0. - constructor; auto. }
      destruct (Rlt_dec y1 _); [|destruct (Rle_dec _ y1)].
      + intros E U. injection E as <- <- <-.
        assert (T2 := trial_A s1 (z_ihi z) (z_hi z) 2 Extrapolate P1 Zh Y1 X1). destruct T2 as (P2 & _).
        split; [|apply TK; exact P2]. cbn. eapply incl_tran; [exact TS|]. apply trial_seen.
      + assert (T2 := trial_A s1 (z_ihi z) (z_hi z) (/2) Contract P1 Zh Y1 X1). assert (TS2 := trial_seen s1 (z_ihi z) (z_hi z) (/2) Contract).
        assert (TO2 := trial_other s1 (z_ihi z) (z_hi z) (/2) Contract (z_ilo z) (k_ne _ _ _ Z)).
        destruct (trialStep func ls rnd s1 (z_ihi z) (z_hi z) (/2) Contract) as [y2 s2]. cbn [snd] in *. destruct T2 as (P2 & Y2 & X2 & R2 & IT2).
        destruct (Rle_dec _ y2); intros E U; injection E as <- <- <-.
        * assert (IA := inflate_A s2 (z_ilo z) (/2) Shrink P2 Zi ltac:(lra)). destruct IA as [PA ITA].
          -- exact U.
          -- intros k E. destruct (R2 k E) as (E1 & E2). destruct (R1 k E1) as (E3 & E4). destruct TO2 as [_ ->]. destruct TO as [_ ->].
             rewrite E2, E4, <- (lowest_row s0 P k E3), <- ZE. apply Z.
          -- split. { cbn. eapply incl_tran; [exact TS|]. eapply incl_tran; [exact TS2|]. apply inflate_seen. }
             apply TK. destruct PA as [a b0 c d [x y w] f g]. constructor; auto. { apply inv_draw; auto. } constructor; auto.
        * split; [|apply TK; exact P2]. cbn. eapply incl_tran; eauto.
      + intros E U. injection E as <- <- <-. split; [exact TS|apply TK; exact P1].
  Qed.

  Lemma turn_seen s tr : incl (a_seen s) (a_seen (snd (fst (turn func ls abstol reltol None rnd s tr)))).
  Proof.
    unfold turn. set (z := select _). set (s0 := draw s _). change (a_seen s) with (a_seen s0). clearbody s0 z.
    destruct (stops _ _ _ _).
    - destruct (swap_fields s0 (z_ilo z)) as (_ & _ & _ & _ & f5). destruct (Rlt_dec _ _); [|destruct (a_iter _ =? 0)%nat]; cbn [fst snd].
      + cbn. rewrite f5. apply incl_refl.
      + eapply incl_tran; [|apply inflate_seen]. rewrite f5. apply incl_refl.
      + rewrite f5. apply incl_refl.
    - assert (TS := trial_seen s0 (z_ihi z) (z_hi z) (-1) Reflect).
      destruct (trialStep func ls rnd s0 (z_ihi z) (z_hi z) (-1) Reflect) as [y1 s1]. cbn [snd] in *.
      destruct (Rlt_dec y1 _); [|destruct (Rle_dec _ y1)]; cbn [fst snd].
      + cbn. eapply incl_tran; [exact TS|]. apply trial_seen.
      + assert (TS2 := trial_seen s1 (z_ihi z) (z_hi z) (/2) Contract). destruct (trialStep func ls rnd s1 (z_ihi z) (z_hi z) (/2) Contract) as [y2 s2]. cbn [snd] in *.
        destruct (Rle_dec _ y2); cbn [fst snd]; cbn; eapply incl_tran; try exact TS; eapply incl_tran; try exact TS2; [apply inflate_seen|apply incl_refl].
      + exact TS.
  Qed.

  Lemma turns_seen fuel mx : forall s tr s' tr', turns func ls abstol reltol None rnd fuel mx s tr = Some (s', tr') -> incl (a_seen s) (a_seen s').
  Proof.
    induction fuel as [|n IH]; intros s tr s' tr' E; [discriminate|]. cbn [turns] in E.
    destruct (_ <? _)%nat; [|injection E as <- _; apply incl_refl].
    assert (T := turn_seen s tr). destruct (turn _ _ _ _ _ _ s tr) as [[b s1] t1]. cbn [fst snd] in *.
    destruct b; [injection E as <- _; exact T|]. eapply incl_tran; [exact T|]. eapply IH; eauto.
  Qed.

  Definition calm (s : ast) : Prop := a_iter s = 0%nat -> stops abstol reltol (z_lo (select (a_vals s))) (z_hi (select (a_vals s))) = false.

  Lemma turnsA fuel mx : forall s tr s' tr', phA s -> calm s -> turns func ls abstol reltol None rnd fuel mx s tr = Some (s', tr') -> uniq s' ->
    (phA s' /\ calm s') \/ phB s'.
  Proof.
    induction fuel as [|n IH]; intros s tr s' tr' P C E U; [discriminate|]. cbn [turns] in E.
    destruct (_ <? _)%nat; [|injection E as <- _; auto].
    destruct (turn _ _ _ _ _ _ s tr) as [[b s1] t1] eqn:F.
    assert (U1 : uniq s1). { destruct b; [injection E as <- _; auto|]. eapply uniq_incl; [|exact U]. eapply turns_seen; eauto. }
    destruct (turnA s tr b s1 t1 P C F U1) as [_ K].
    destruct b; [injection E as <- _; auto|]. destruct K as [K1 K2]. eapply IH; eauto. intros Z. contradiction.
  Qed.

  Lemma phA_setsum s : phA s -> phA (setsum s (colsum (nfit ls s) (a_rows s))).
  Proof.
    intros [a b0 c d [x y w] f g]. constructor; auto.
    - eapply inv_same; [..|exact b0]; try reflexivity. apply b0.
    - constructor; auto. cbn. apply colsum_len. eapply Forall_impl; [|exact x]. intros p P. apply within_len; auto.
  Qed.

  Lemma loop_seen fuel mx : forall s r s', loop func ls abstol reltol maxiter0 steps cooling None rnd fuel mx s = Some (r, s') -> incl (a_seen s) (a_seen s').
  Proof.
    induction fuel as [|n IH]; intros s r s' E; [discriminate|]. cbn [loop] in E.
    destruct (_ <? _)%nat; [|injection E as _ <-; apply incl_refl].
    unfold temperatureStep in E. destruct (turns _ _ _ _ _ _ _ _ _ _) as [[s1 t1]|] eqn:F; [|discriminate]. apply turns_seen in F.
    set (s2 := if Rlt_dec 0 (a_temp s1) then _ else _) in E. assert (E2 : a_seen s2 = a_seen s1) by (unfold s2; destruct (Rlt_dec _ _); reflexivity). clearbody s2.
    cbn in F. rewrite <- E2 in F. destruct (t1 =? 0)%nat; [injection E as _ <-; exact F|]. eapply incl_tran; [exact F|]. eapply IH; eauto.
  Qed.

  Lemma phA_temp s : phA s \/ phB s -> a_temp s = 0.
  Proof. intros [P|P]; apply P. Qed.

  Lemma loopA fuel mx : forall s x s', (phA s /\ calm s) \/ phB s -> loop func ls abstol reltol maxiter0 steps cooling None rnd fuel mx s = Some (Ret x, s') -> uniq s' ->
    func x = a_fopt s'.
  Proof.
    induction fuel as [|n IH]; intros s x s' P E U; [discriminate|]. cbn [loop] in E.
    destruct (_ <? _)%nat; [|discriminate].
    unfold temperatureStep in E. destruct (turns _ _ _ _ _ _ _ _ _ _) as [[s1 t1]|] eqn:F; [|discriminate].
    set (s2 := if Rlt_dec 0 (a_temp s1) then _ else _) in E.
    assert (U1 : uniq s1).
    { eapply uniq_incl; [|exact U]. assert (E2 : a_seen s2 = a_seen s1) by (unfold s2; destruct (Rlt_dec _ _); reflexivity). rewrite <- E2.
      destruct (t1 =? 0)%nat; [injection E as _ <-; apply incl_refl|]. eapply loop_seen; eauto. }
    destruct P as [[P C]|P].
    - assert (K := turnsA n _ _ _ s1 t1 (phA_setsum s P) C F U1).
      assert (T1 : a_temp s1 = 0) by (destruct K as [[K _]|K]; apply K).
      assert (E2 : s2 = s1) by (unfold s2; destruct (Rlt_dec _ _); [lra|reflexivity]). rewrite E2 in *. clear s2 E2.
      destruct (t1 =? 0)%nat; [|eapply IH; eauto]. injection E as <- <-. destruct K as [[K _]|K]; [apply phA_xopt; auto|apply K].
    - destruct n as [|n]; [discriminate|]. cbn [turns] in F. cbn [a_iter setsum] in F. destruct (_ <? _)%nat.
      + assert (PS : phB (setsum s (colsum (nfit ls s) (a_rows s)))) by (destruct P as [a b c d e]; constructor; auto).
        destruct (turnB _ PS) as (s3 & T1 & T2 & T3 & T4 & T5). rewrite T1 in F. injection F as <- <-.
        assert (E2 : s2 = s3) by (unfold s2; destruct (Rlt_dec _ _); [lra|reflexivity]). rewrite E2 in *. cbn in E. injection E as <- <-. exact T2.
      + injection F as <- <-. cbn in E.
        assert (E2 : s2 = setsum s (colsum (nfit ls s) (a_rows s))) by (unfold s2; destruct (Rlt_dec _ _) as [q|]; [cbn in q; rewrite (q_temp _ P) in q; lra|reflexivity]).
        rewrite E2 in *. injection E as <- <-. apply P.
  Qed.

  Lemma make_A x st s : ordered ls -> length x = length ls -> length st = length ls -> (1 <= length ls)%nat -> makeSimplex func ls x st 0 = Ret s -> phA s.
  Proof.
    intros O LX LS N1 E. destruct (make_all func ls x st 0 s O LX LS N1 E) as ((I & S1 & RK & _) & _ & L).
    revert E. unfold makeSimplex. destruct (insides ls x st) as [[x' st']|]; [|discriminate].
    assert (RL : length (map (corner ls x' st') (seq 0 (S (length x)))) = N) by (rewrite map_length, seq_length; unfold N; lia).
    set (rows := map (corner ls x' st') (seq 0 (S (length x)))) in *. clearbody rows. cbv zeta. destruct (degenerate _ _); [discriminate|]. intros E. injection E as <-.
    constructor; auto.
    - intros j J. unfold row, val. cbn [a_rows a_vals a_seen]. rewrite (nth_indep _ 0 (func [])) by (rewrite map_length; lia).
      rewrite map_nth. apply in_map_iff. exists (nth j rows []). split; auto. apply nth_In. lia.
    - intros k E. discriminate E.
  Qed.
End Zero.
