(** Lemmas about the amoeba: the limits. *)
From Coq Require Import List Arith Reals Bool Lia Lra.
From Verif Require Import M_Order P_Order M_Fitter M_Amoeba P_Amoeba.
Import ListNotations.
Local Open Scope R_scope.
Set Default Proof Using "Type".

Definition in1 (l : option R * option R) (x : R) : Prop :=
  (forall lo, fst l = Some lo -> lo <= x) /\ (forall hi, snd l = Some hi -> x <= hi).
Definition within (ls : lims) (p : pt) : Prop := Forall2 in1 ls p.
Definition ordered (ls : lims) : Prop := Forall (fun l => forall lo hi, l = (Some lo, Some hi) -> lo <= hi) ls.

Lemma stay1_in l old try : in1 l old -> in1 l (stay1 l old try).
Proof.
  destruct l as [[lo|] [hi|]]; unfold in1, stay1; cbn [fst snd]; intros [A B];
    try specialize (A _ eq_refl); try specialize (B _ eq_refl);
    repeat (destruct (Rlt_dec _ _)); split; intros ? E; injection E as <- || discriminate E; lra.
Qed.

Lemma stay1_id l old x : in1 l x -> stay1 l old x = x.
Proof.
  destruct l as [[lo|] [hi|]]; unfold in1, stay1; cbn [fst snd]; intros [A B];
    try specialize (A _ eq_refl); try specialize (B _ eq_refl);
    repeat (destruct (Rlt_dec _ _)); try reflexivity; lra.
Qed.

Lemma stay_in ls : forall old try, within ls old -> length try = length ls -> within ls (stayInLimits ls old try).
Proof.
  induction ls as [|l ls IH]; intros old try W L.
  - inversion W; subst. constructor.
  - inversion W; subst. destruct try as [|t try]; [discriminate|]. cbn. constructor; [apply stay1_in; auto|]. apply IH; auto.
Qed.

Lemma stay_id ls : forall old p, within ls p -> length old = length ls -> stayInLimits ls old p = p.
Proof.
  induction ls as [|l ls IH]; intros old p W L.
  - inversion W; subst. reflexivity.
  - inversion W; subst. destruct old as [|o old]; [discriminate|]. unfold stayInLimits in *. cbn. f_equal; [apply stay1_id; auto|]. apply IH; auto.
Qed.

Lemma lin_len a p b q : length (lin a p b q) = Nat.min (length p) (length q).
Proof. unfold lin. rewrite map_length, combine_length. reflexivity. Qed.

Lemma lin_in ls f : 0 <= f <= 1 -> forall p q, within ls p -> within ls q -> within ls (lin f p (1 - f) q).
Proof.
  intros F. induction ls as [|l ls IH]; intros p q P Q; inversion P; inversion Q; subst; cbn; constructor; [|apply IH; auto].
  destruct l as [[lo|] [hi|]]; unfold in1 in *; cbn [fst snd] in *; split; intros ? E; injection E as <- || discriminate E;
  repeat match goal with H : _ /\ _ |- _ => destruct H as [? ?] end;
  repeat match goal with H : forall _, Some ?a = Some _ -> _ |- _ => specialize (H _ eq_refl) end; nra.
Qed.

Lemma within_len ls p : within ls p -> length p = length ls.
Proof. intros H. induction H; cbn; auto. Qed.

Section Lim.
  Context (func : pt -> R) (ls : lims) (abstol reltol : option R) (maxiter0 steps : nat) (cooling : R) (rnd : nat -> R).

  Record lim0 (s : ast) : Prop := mkLim
    { l_rows : Forall (within ls) (a_rows s); l_seen : Forall (within ls) (map fst (a_seen s)); l_sum : length (a_sum s) = length ls }.
  Definition lim (s : ast) : Prop := In Expand (a_moves s) \/ lim0 s.

  Lemma row_in s i : lim0 s -> (i < length (a_rows s))%nat -> within ls (row s i).
  Proof. intros [R _ _] B. rewrite Forall_forall in R. apply R. unfold row. apply nth_In. exact B. Qed.

  Lemma colsum_len n rows : Forall (fun p => length p = n) rows -> length (colsum n rows) = n.
  Proof.
    unfold colsum. intros F. assert (H : forall rows a, Forall (fun p => length p = n) rows -> length a = n -> length (fold_left (fun a r => lin 1 a 1 r) rows a) = n).
    { clear. induction rows as [|p r IH]; intros a F A; [exact A|]. inversion F; subst. cbn. apply IH; auto. rewrite lin_len. lia. }
    apply H; auto. apply repeat_length.
  Qed.

  Lemma trial_lim0 s i y f m : lim0 s -> (i < length (a_rows s))%nat -> lim0 (snd (trialStep func ls rnd s i y f m)).
  Proof.
    intros I B. assert (W := row_in s i I B). assert (WL := within_len _ _ W). unfold trialStep.
    match goal with |- context [stayInLimits ls (row s i) ?t] => set (t0 := t); assert (P : within ls (stayInLimits ls (row s i) t0)) end.
    { apply stay_in; auto. unfold t0. rewrite lin_len. destruct I. lia. }
    set (p := stayInLimits ls (row s i) t0) in *. clearbody p.
    destruct I as [R S N].
    assert (SE : Forall (within ls) (map fst (a_seen s ++ [(p, func p)]))) by (rewrite map_app; apply Forall_app; split; [exact S|cbn; auto]).
    assert (PL := within_len _ _ P).
    repeat destruct (Rlt_dec _ _); cbn [snd]; constructor; cbn [a_rows a_seen a_sum setrow setsum draw setbest moved see]; auto; try (apply Forall_upd; auto; fail);
      rewrite !lin_len; unfold row in *; cbn [a_rows a_seen a_sum setrow setsum draw setbest moved see]; rewrite WL, PL, N; lia.
  Qed.

  Lemma trial_moves s i y f m x : In x (a_moves (snd (trialStep func ls rnd s i y f m))) <-> In x (a_moves s) \/ x = m.
  Proof. unfold trialStep. repeat destruct (Rlt_dec _ _); cbn; rewrite in_app_iff; cbn; (split; [intros [?|[?|[]]]; auto|intros [?| ->]; auto]). Qed.

  Lemma inflates_lim0 l : forall y s, (forall i, In i l -> (i < length (a_rows s))%nat) -> lim0 s -> lim0 (snd (fold_left (inflate2 func) l (y, s))).
  Proof.
    induction l as [|i l IH]; intros y s B I; [exact I|]. cbn [fold_left].
    assert (W := row_in s i I (B i (or_introl eq_refl))).
    assert (I1 : lim0 (snd (inflate2 func (y, s) i)) /\ length (a_rows (snd (inflate2 func (y, s) i))) = length (a_rows s)).
    { unfold inflate2. destruct I as [R S N].
      assert (SE : Forall (within ls) (map fst (a_seen s ++ [(row s i, func (row s i))]))) by (rewrite map_app; apply Forall_app; split; [exact S|cbn; auto]).
      repeat destruct (Rlt_dec _ _); cbn [snd]; (split; [constructor; cbn; auto; apply Forall_upd; auto|cbn; apply upd_length]). }
    destruct (inflate2 func (y, s) i) as [y1 s1]. cbn [snd] in I1. destruct I1 as [I1 L1]. apply IH; auto.
    intros j J. rewrite L1. apply B. right; auto.
  Qed.

  Lemma inflate_lim0 s i f m : lim0 s -> (i < length (a_rows s))%nat -> 0 <= f <= 1 -> lim0 (snd (inflateSimplex func ls s i f m)).
  Proof.
    intros I B F. assert (W := row_in s i I B). unfold inflateSimplex.
    match goal with |- context [fold_left (inflate2 func) ?l (?y, ?s1)] => assert (H := inflates_lim0 l y s1) end.
    set (rows := map _ _) in *.
    assert (RW : Forall (within ls) rows).
    { unfold rows. apply Forall_forall. intros p P. apply in_map_iff in P. destruct P as ([k q] & E & P). cbn [fst snd] in E.
      apply in_combine_r in P. destruct I as [R _ _]. rewrite Forall_forall in R. apply R in P.
      destruct (k =? i)%nat; [subst; auto|]. subst p. unfold inflate1. rewrite stay_id; [apply lin_in; auto|apply lin_in; auto|].
      rewrite lin_len, (within_len _ _ P), (within_len _ _ W). lia. }
    assert (RL : length rows = length (a_rows s)) by (unfold rows; rewrite map_length, combine_length, seq_length; lia).
    clearbody rows. destruct (fold_left _ _ _) as [y2 s2]. cbn [snd] in *.
    assert (I2 : lim0 s2). { apply H. - cbn [a_rows]. rewrite RL. intros j J. apply in_app_or in J. destruct J as [J|J]; apply in_seq in J; lia. - destruct I; constructor; cbn; auto. }
    destruct I2 as [R2 S2 N2]. constructor; cbn; auto. apply colsum_len.
    eapply Forall_impl; [|exact RW]. intros p P. apply within_len; auto.
  Qed.

  Lemma inflate_moves s i f m x : In x (a_moves (snd (inflateSimplex func ls s i f m))) <-> In x (a_moves s) \/ x = m.
  Proof.
    unfold inflateSimplex.
    assert (H : forall l y s, a_moves (snd (fold_left (inflate2 func) l (y, s))) = a_moves s).
    { clear. induction l as [|i l IH]; intros y s; [reflexivity|]. cbn [fold_left].
      destruct (inflate2 func (y, s) i) as [y1 s1] eqn:E. rewrite IH. revert E. unfold inflate2.
      repeat destruct (Rlt_dec _ _); intros E; injection E as <- <-; reflexivity. }
    match goal with |- context [fold_left (inflate2 func) ?l (?y, ?s1)] => specialize (H l y s1) end.
    destruct (fold_left _ _ _) as [y2 s2]. cbn in *. rewrite H, in_app_iff. cbn. split; [intros [?|[?|[]]]; auto|intros [?| ->]; auto].
  Qed.

  Lemma xopt_in s : lim0 s -> (forall p, a_xopt s = Own p -> In p (map fst (a_seen s))) -> (forall i, a_xopt s = Row i -> (i < length (a_rows s))%nat) -> within ls (xopt s).
  Proof.
    intros I O RW. unfold xopt. destruct (a_xopt s) as [p|i].
    - destruct I as [_ S _]. rewrite Forall_forall in S. apply S. auto.
    - apply row_in; auto.
  Qed.

  (** xopt points to a row that exists *)
  Definition rowok (s : ast) : Prop := forall i, a_xopt s = Row i -> (i < length (a_rows s))%nat.

  Lemma trial_rowok s i y f m : rowok s -> rowok (snd (trialStep func ls rnd s i y f m)).
  Proof. unfold trialStep, rowok. intros H. repeat destruct (Rlt_dec _ _); cbn; rewrite ?upd_length; auto; congruence. Qed.

  Lemma inflate_rowok s i f m : rowok s -> (i < length (a_rows s))%nat -> rowok (snd (inflateSimplex func ls s i f m)).
  Proof.
    intros H B. unfold inflateSimplex.
    assert (K : forall l y s, rowok s -> (forall i, In i l -> (i < length (a_rows s))%nat) -> rowok (snd (fold_left (inflate2 func) l (y, s)))).
    { clear. induction l as [|i l IH]; intros y s H B; [exact H|]. cbn [fold_left].
      destruct (inflate2 func (y, s) i) as [y1 s1] eqn:E. revert E. unfold inflate2.
      repeat destruct (Rlt_dec _ _); intros E; injection E as <- <-; apply IH; unfold rowok in *; cbn; rewrite ?upd_length;
        try (intros j J; apply B; right; exact J); auto. intros j J. injection J as <-. apply B. left; auto. }
    match goal with |- context [fold_left (inflate2 func) ?l (?y, ?s1)] => specialize (K l y s1) end.
    destruct (fold_left _ _ _) as [y2 s2]. cbn [snd] in *. unfold rowok in *. cbn. apply K; cbn.
    - rewrite map_length, combine_length, seq_length. intros j J. apply H in J. lia.
    - rewrite map_length, combine_length, seq_length. intros j J. apply in_app_or in J. destruct J as [J|J]; apply in_seq in J; lia.
  Qed.

  Definition all3 (s : ast) : Prop := inv func s /\ shaped ls s /\ rowok s /\ lim s.

  Lemma lim0_xopt s : inv func s -> rowok s -> lim0 s -> within ls (xopt s).
  Proof. intros I RK L. apply xopt_in; auto. intros p E. apply I in E. apply in_map_iff. exists (p, a_fopt s). auto. Qed.

  Lemma turn_lim s tr : all3 s -> all3 (snd (fst (turn func ls abstol reltol None rnd s tr))).
  Proof.
    intros (I & S & RK & L). destruct (turn_inv func ls abstol reltol None rnd s tr I S) as [I' S']. split; [exact I'|]. split; [exact S'|]. clear I' S'.
    unfold turn. set (z := select _). set (s0 := draw s _).
    assert (B : (z_ilo z < length (a_rows s0))%nat /\ (z_ihi z < length (a_rows s0))%nat).
    { destruct S as (e & er & ?). change (length (a_rows s0)) with (length (a_rows s)). rewrite er, <- e. unfold z. rewrite <- (fluct_len rnd s). apply select_bound. rewrite fluct_len. lia. }
    assert (I0 : inv func s0) by (apply inv_draw; auto).
    assert (S0 : shaped ls s0) by exact S.
    assert (R0 : rowok s0) by exact RK.
    assert (L0 : lim s0). { destruct L as [L|[a b c]]; [left; exact L|right; constructor; auto]. }
    clearbody s0 z. clear s I S RK L. rename s0 into s, I0 into I, S0 into S, R0 into RK, L0 into L. destruct B as [Bl Bh].
    destruct (stops _ _ _).
    - assert (I1 : inv func (swap s (z_ilo z))) by (apply swap_inv; auto; destruct S as (e & er & ?); lia).
      assert (L1 := swap_len s (z_ilo z)). destruct L1 as [L1 L2].
      assert (RK1 : rowok (swap s (z_ilo z))). { unfold rowok. rewrite L2. unfold swap. destruct (0 <? z_ilo z)%nat; exact RK. }
      assert (LM : lim (swap s (z_ilo z))).
      { unfold swap. destruct (0 <? z_ilo z)%nat; [|auto]. destruct L as [L|L]; [left; exact L|right]. assert (W := row_in s _ L Bl). destruct L as [a b c].
        constructor; cbn [a_rows a_seen a_sum]; auto. apply Forall_upd; auto. }
      set (s1 := swap s (z_ilo z)) in *. clearbody s1. rewrite <- L2 in Bl.
      destruct (Rlt_dec _ _); [|destruct (a_iter s1 =? 0)%nat]; cbn [fst snd]; auto.
      + split; [unfold rowok in *; cbn; rewrite upd_length; auto|]. destruct LM as [LM|LM]; [left; cbn; rewrite in_app_iff; auto|right].
        assert (W := lim0_xopt s1 I1 RK1 LM). destruct LM as [a b c]. constructor; cbn [moved setrow a_rows a_seen a_sum]; auto. apply Forall_upd; auto.
      + split; [apply inflate_rowok; auto|]. left. apply inflate_moves. auto.
    - assert (K : forall s1, rowok s1 /\ lim s1 -> rowok (tickiter s1) /\ lim (tickiter s1)).
      { intros s1 [a [b|[x y w]]]; (split; [exact a|]); [left; exact b|right; constructor; auto]. }
      assert (T : forall s1 y f m, m <> Expand -> (z_ihi z < length (a_rows s1))%nat -> rowok s1 /\ lim s1 ->
         rowok (snd (trialStep func ls rnd s1 (z_ihi z) y f m)) /\ lim (snd (trialStep func ls rnd s1 (z_ihi z) y f m))).
      { intros s1 y f m M B1 [RK1 L1]. split; [apply trial_rowok; auto|]. destruct L1 as [L1|L1]; [left; apply trial_moves; auto|right; apply trial_lim0; auto]. }
      assert (T0 := T s (z_hi z) (-1) Reflect ltac:(discriminate) Bh (conj RK L)).
      assert (E1 := trial_len func ls rnd s (z_ihi z) (z_hi z) (-1) Reflect).
      destruct (trialStep func ls rnd s (z_ihi z) (z_hi z) (-1) Reflect) as [y1 s1]. cbn [snd] in *. destruct E1 as [_ E1].
      destruct (Rlt_dec y1 _); [|destruct (Rle_dec _ y1)]; cbn [fst snd].
      + apply K, T; auto; [discriminate|lia].
      + assert (T1 := T s1 (z_hi z) (/2) Contract ltac:(discriminate) ltac:(lia) T0).
        assert (E2 := trial_len func ls rnd s1 (z_ihi z) (z_hi z) (/2) Contract).
        destruct (trialStep func ls rnd s1 (z_ihi z) (z_hi z) (/2) Contract) as [y2 s2]. cbn [snd] in *. destruct E2 as [_ E2].
        destruct (Rle_dec _ y2); cbn [fst snd]; [|apply K; auto]. apply K. destruct T1 as [RK2 L2]. split.
        * apply (inflate_rowok s2 (z_ilo z) (/2) Shrink RK2). lia.
        * destruct L2 as [L2|L2]; [left; cbn; apply inflate_moves; auto|right].
          destruct (inflate_lim0 s2 (z_ilo z) (/2) Shrink L2) as [a b c]; [lia|lra|]. constructor; auto.
      + apply K; auto.
  Qed.

  Lemma turns_lim fuel mx : forall s tr s' tr', all3 s -> turns func ls abstol reltol None rnd fuel mx s tr = Some (s', tr') -> all3 s'.
  Proof.
    induction fuel as [|n IH]; intros s tr s' tr' I E; [discriminate|]. cbn [turns] in E.
    destruct (_ <? _)%nat; [|injection E as <- _; auto].
    assert (I1 := turn_lim s tr I). destruct (turn _ _ _ _ _ _ s tr) as [[b s1] t1]. cbn [fst snd] in *.
    destruct b; [injection E as <- _; auto|eauto].
  Qed.

  Lemma loop_lim fuel mx : forall s r s', all3 s -> loop func ls abstol reltol maxiter0 steps cooling None rnd fuel mx s = Some (r, s') -> all3 s'.
  Proof.
    induction fuel as [|n IH]; intros s r s' I E; [discriminate|]. cbn [loop] in E.
    destruct (_ <? _)%nat; [|injection E as <- <-; auto].
    unfold temperatureStep in E. destruct (turns _ _ _ _ _ _ _ _ _ _) as [[s1 t1]|] eqn:F; [|discriminate].
    apply turns_lim in F.
    2:{ destruct I as (I & S & RK & L). repeat split; try apply I; try apply S; auto. destruct L as [L|L]; [left; exact L|right].
        destruct L as [a b c]. constructor; cbn; auto. apply colsum_len. eapply Forall_impl; [|exact a]. intros p P. apply within_len; auto. }
    set (s2 := if Rlt_dec 0 (a_temp s1) then _ else _) in E.
    assert (I2 : all3 s2). { unfold s2. destruct (Rlt_dec _ _); auto. destruct F as (I1 & S1 & RK & L). repeat split; try apply I1; try apply S1; auto. destruct L as [L|[a b c]]; [left; exact L|right; constructor; auto]. }
    clearbody s2. destruct (t1 =? 0)%nat; [|eapply IH; eauto]. injection E as <- <-. exact I2.
  Qed.

  Lemma insides_in : forall ls0 x st x' st', ordered ls0 -> length x = length ls0 -> length st = length ls0 -> insides ls0 x st = Some (x', st') ->
    within ls0 x' /\ length st' = length ls0.
  Proof.
    induction ls0 as [|l ls0 IH]; intros x st x' st' O LX LS E; destruct x as [|a x], st as [|b st]; try discriminate.
    - injection E as <- <-. split; constructor.
    - cbn in E. inversion O; subst. destruct (inside1 l a b) as [[a' b']|] eqn:F; [|discriminate].
      destruct (insides ls0 x st) as [[x2 st2]|] eqn:G; [|discriminate]. injection E as <- <-.
      apply IH in G; auto. destruct G as [G1 G2]. split; [|cbn; lia]. constructor; [|exact G1].
      destruct l as [[lo|] [hi|]]; unfold inside1 in F; unfold in1; cbn [fst snd]; try specialize (H1 _ _ eq_refl);
        repeat destruct (Rle_dec _ _); try discriminate F; injection F as <- <-; split; intros ? E; injection E as <- || discriminate E; lra.
  Qed.

  Lemma make_all x st t s : ordered ls -> length x = length ls -> length st = length ls -> (1 <= length ls)%nat -> makeSimplex func ls x st t = Ret s ->
    all3 s /\ a_moves s = [] /\ lim0 s.
  Proof.
    intros O LX LS N E. destruct (make_inv func ls x st t s E LX N) as [I SH].
    assert (K : a_moves s = [] /\ lim0 s /\ rowok s).
    { revert E. unfold makeSimplex. destruct (insides ls x st) as [[x' st']|] eqn:F; [|discriminate].
      destruct (insides_in _ _ _ _ _ O LX LS F) as [X' ST'].
      assert (RW : Forall (within ls) (map (corner ls x' st') (seq 0 (S (length x))))).
      { apply Forall_forall. intros p P. apply in_map_iff in P. destruct P as (i & <- & _). unfold corner. apply stay_in; auto. rewrite upd_length. apply within_len; auto. }
      set (rows := map (corner ls x' st') (seq 0 (S (length x)))) in *. clearbody rows. cbv zeta. destruct (degenerate _ _); [discriminate|]. intros E. injection E as <-.
      split; [reflexivity|]. split.
      - constructor; cbn [a_rows a_seen a_sum]; auto.
        + rewrite map_map. cbn. rewrite map_id. exact RW.
        + rewrite LX. apply colsum_len. eapply Forall_impl; [|exact RW]. intros p P. apply within_len; auto.
      - intros i. cbn. discriminate. }
    destruct K as (M & L & RK). repeat split; try apply I; try apply SH; auto; [right; auto|apply L..].
  Qed.
End Lim.
