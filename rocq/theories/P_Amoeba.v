(** Lemmas about the amoeba: the lowest value seen, the limits. *)
From Coq Require Import List Arith Reals Bool Lia Lra.
From Verif Require Import M_Order P_Order M_Fitter M_Amoeba.
Import ListNotations.
Local Open Scope R_scope.
Set Default Proof Using "Type".

Lemma upd_In {A} (x : A) l : forall i y, In y (upd i x l) -> y = x \/ In y l.
Proof.
  induction l as [|a l IH]; intros [|i] y; cbn; auto. { intros [<-|H]; auto. }
  intros [<-|H]; auto. apply IH in H. tauto.
Qed.

Lemma upd_nth_d {A} (x d : A) l : forall i j, nth j (upd i x l) d = if ((j =? i) && (i <? length l))%nat then x else nth j l d.
Proof.
  induction l as [|a l IH]; intros i j.
  - replace (upd i x []) with (@nil A) by (destruct i; reflexivity). cbn. rewrite andb_false_r. destruct j; reflexivity.
  - destruct i, j; cbn; try reflexivity. rewrite IH. reflexivity.
Qed.

Section Inv.
  Context (func : pt -> R) (ls : lims) (abstol reltol : option R) (maxiter0 steps : nat) (cooling : R)
          (callback : option (pt -> pt)) (rnd : nat -> R).

  Definition seen_at (s : ast) (v : R) : Prop := In v (map snd (a_seen s)).
  Record inv (s : ast) : Prop := mkInv
    { i_true : forall p v, In (p, v) (a_seen s) -> v = func p;
      i_best : seen_at s (a_fopt s);
      i_low : forall v, seen_at s v -> a_fopt s <= v;
      i_vals : forall v, In v (a_vals s) -> seen_at s v;
      i_own : forall p, a_xopt s = Own p -> In (p, a_fopt s) (a_seen s) }.

  Lemma see_at s p v : seen_at (see func s p) v <-> seen_at s v \/ v = func p.
  Proof.
    unfold seen_at. cbn [see a_seen]. rewrite map_app, in_app_iff. cbn [map snd]. split.
    - intros [H|[H|[]]]; [left; exact H|right; symmetry; exact H].
    - intros [H|H]; [left; exact H|right; left; symmetry; exact H].
  Qed.

  Lemma see_in s p q v : In (q, v) (a_seen (see func s p)) <-> In (q, v) (a_seen s) \/ (q, v) = (p, func p).
  Proof.
    cbn [see a_seen]. rewrite in_app_iff. split.
    - intros [H|[H|[]]]; [left; exact H|right; symmetry; exact H].
    - intros [H|H]; [left; exact H|right; left; symmetry; exact H].
  Qed.

  (** a point is asked for, and remembered when it is better *)
  Definition note (s : ast) (p : pt) (x : xref) : ast :=
    let s := see func s p in if Rlt_dec (func p) (a_fopt s) then setbest s (func p) x else s.

  Lemma note_inv s p x : inv s -> (forall q, x = Own q -> q = p) -> inv (note s p x).
  Proof.
    intros [T B L V O] X. unfold note. cbn [a_fopt see]. destruct (Rlt_dec (func p) (a_fopt s)) as [lt|ge]; constructor; cbn [setbest see a_fopt a_vals a_xopt].
    - intros q v. intros H. apply see_in in H. destruct H as [H|H]; [eauto|congruence].
    - apply see_at. auto.
    - intros v. intros H. apply see_at in H. destruct H as [H| ->]; [|lra]. apply L in H. lra.
    - intros v H. apply see_at. auto.
    - intros q E. apply X in E. subst q. apply see_in. auto.
    - intros q v H. apply see_in in H. destruct H as [H|H]; [eauto|congruence].
    - apply see_at. auto.
    - intros v H. apply see_at in H. destruct H as [H| ->]; [|lra]. auto.
    - intros v H. apply see_at. auto.
    - intros q E. apply see_in. auto.
  Qed.

  Lemma note_seen s p x : seen_at (note s p x) (func p).
  Proof. unfold note. destruct (Rlt_dec _ _); apply see_at; auto. Qed.

  (** the parts of the state that matter *)
  Lemma inv_same s s' : a_seen s' = a_seen s -> a_fopt s' = a_fopt s -> a_xopt s' = a_xopt s ->
    (forall v, In v (a_vals s') -> seen_at s v) -> inv s -> inv s'.
  Proof.
    intros S F X V' [T B L V O]. constructor; unfold seen_at; rewrite ?S, ?F, ?X; auto.
  Qed.

  Lemma trial_inv s i y f m : inv s -> inv (snd (trialStep func ls rnd s i y f m)).
  Proof.
    intros I. unfold trialStep. set (p := stayInLimits _ _ _).
    replace (if Rlt_dec (func p) (a_fopt (moved (see func s p) m)) then setbest (moved (see func s p) m) (func p) (Own p) else moved (see func s p) m)
      with (moved (note s p (Own p)) m) by (unfold note; cbn; destruct (Rlt_dec _ _); reflexivity).
    assert (I1 : inv (note s p (Own p))) by (apply note_inv; auto; congruence).
    assert (S1 := note_seen s p (Own p)).
    destruct (Rlt_dec _ _); cbn [snd].
    - eapply inv_same; [..|exact I1]; try reflexivity. cbn. intros v H. apply upd_In in H. destruct H as [->|H]; [exact S1|]. apply I1; exact H.
    - eapply inv_same; [..|exact I1]; try reflexivity. apply I1.
  Qed.

  Lemma inflate2_inv y s i : inv s -> a_fopt s <= y -> inv (snd (inflate2 func (y, s) i)) /\ a_fopt (snd (inflate2 func (y, s) i)) <= fst (inflate2 func (y, s) i).
  Proof.
    intros I Y. unfold inflate2. set (p := row s i). set (s0 := see func (setrow s i p (func p)) p).
    assert (I0 : inv (note s p (Row i))) by (apply note_inv; auto; congruence).
    assert (S1 := note_seen s p (Row i)).
    destruct (Rlt_dec (func p) y) as [lt|ge]; cbn [fst snd].
    - unfold note in *. cbn [a_fopt see setrow s0] in *. destruct (Rlt_dec (func p) (a_fopt s)) as [lt2|ge2]; split; try (cbn; lra).
      + eapply inv_same; [..|exact I0]; try reflexivity. cbn. intros v H. apply upd_In in H. destruct H as [->|H]; [exact S1|]. apply I0; exact H.
      + eapply inv_same; [..|exact I0]; try reflexivity. cbn. intros v H. apply upd_In in H. destruct H as [->|H]; [exact S1|]. apply I0; exact H.
    - unfold note in *. cbn [a_fopt see setrow s0] in *. destruct (Rlt_dec (func p) (a_fopt s)) as [lt2|ge2]; [lra|]. split; [|cbn; lra].
      eapply inv_same; [..|exact I0]; try reflexivity. cbn. intros v H. apply upd_In in H. destruct H as [->|H]; [exact S1|]. apply I0; exact H.
  Qed.

  Lemma inflates_inv l : forall y s, inv s -> a_fopt s <= y -> inv (snd (fold_left (inflate2 func) l (y, s))).
  Proof.
    induction l as [|i l IH]; intros y s I Y; [exact I|]. cbn [fold_left].
    destruct (inflate2_inv y s i I Y) as [I1 Y1]. destruct (inflate2 func (y, s) i) as [y1 s1]. apply IH; auto.
  Qed.

  Lemma inflate_inv s ilo f m : inv s -> (ilo < length (a_vals s))%nat -> inv (snd (inflateSimplex func ls s ilo f m)).
  Proof.
    intros I B. unfold inflateSimplex.
    match goal with |- context [fold_left (inflate2 func) ?l (?y, ?s1)] => assert (H := inflates_inv l y s1) end.
    destruct (fold_left _ _ _) as [y2 s2]. cbn [snd] in *.
    eapply inv_same with (s := s2); try reflexivity.
    - intros v Hv. apply H; [|apply I|exact Hv].
      + eapply inv_same; [..|exact I]; try reflexivity. apply I.
      + apply I. unfold val. apply nth_In. exact B.
    - apply H.
      + eapply inv_same; [..|exact I]; try reflexivity. apply I.
      + apply I. apply I. unfold val. apply nth_In. exact B.
  Qed.

  (** select: indices within the list *)
  Lemma select1_bound z i y n : (z_ilo z < n)%nat -> (z_ihi z < n)%nat -> (i < n)%nat ->
    (z_ilo (select1 z (i, y)) < n)%nat /\ (z_ihi (select1 z (i, y)) < n)%nat.
  Proof. intros. unfold select1. repeat destruct (Rle_dec _ _); repeat destruct (Rlt_dec _ _); cbn; auto. Qed.

  Lemma select_bound ys : (2 <= length ys)%nat -> (z_ilo (select ys) < length ys)%nat /\ (z_ihi (select ys) < length ys)%nat.
  Proof.
    destruct ys as [|y0 [|y1 r]]; cbn [length]; try lia. intros _. unfold select.
    set (n := S (S (length r))).
    assert (forall l z, (forall i y, In (i, y) l -> (i < n)%nat) -> (z_ilo z < n)%nat -> (z_ihi z < n)%nat ->
      (z_ilo (fold_left select1 l z) < n)%nat /\ (z_ihi (fold_left select1 l z) < n)%nat) as H.
    { induction l as [|[i y] l IH]; intros z B lo hi; [auto|]. cbn [fold_left].
      destruct (select1_bound z i y n lo hi) as [a b]; [eapply B; left; reflexivity|]. apply IH; auto. intros; eapply B; right; eauto. }
    apply H.
    - intros i y I. apply in_combine_l in I. apply in_seq in I. unfold n. lia.
    - destruct (Rlt_dec _ _); cbn; unfold n; lia.
    - destruct (Rlt_dec _ _); cbn; unfold n; lia.
  Qed.

  Lemma fluct_len s : length (fluctuate rnd s) = length (a_vals s).
  Proof. unfold fluctuate. rewrite map_length, combine_length, seq_length. lia. Qed.

  Lemma trial_len s i y f m : length (a_vals (snd (trialStep func ls rnd s i y f m))) = length (a_vals s) /\
    length (a_rows (snd (trialStep func ls rnd s i y f m))) = length (a_rows s).
  Proof. unfold trialStep. repeat destruct (Rlt_dec _ _); cbn; rewrite ?upd_length; auto. Qed.

  Lemma inflates_len l : forall y s, length (a_vals (snd (fold_left (inflate2 func) l (y, s)))) = length (a_vals s) /\
    length (a_rows (snd (fold_left (inflate2 func) l (y, s)))) = length (a_rows s).
  Proof.
    induction l as [|i l IH]; intros y s; [auto|]. cbn [fold_left].
    destruct (inflate2 func (y, s) i) as [y1 s1] eqn:E. unfold inflate2 in E.
    destruct (IH y1 s1) as [-> ->]. revert E. destruct (Rlt_dec _ _); [destruct (Rlt_dec _ _)|]; intros E; injection E as <- <-; cbn; rewrite !upd_length; auto.
  Qed.

  Lemma inflate_len s ilo f m : length (a_vals (snd (inflateSimplex func ls s ilo f m))) = length (a_vals s) /\
    length (a_rows (snd (inflateSimplex func ls s ilo f m))) = length (a_rows s).
  Proof.
    unfold inflateSimplex. match goal with |- context [fold_left (inflate2 func) ?l (?y, ?s1)] => assert (H := inflates_len l y s1) end.
    destruct (fold_left _ _ _) as [y2 s2]. cbn in *. destruct H as [-> ->]. rewrite map_length, combine_length, seq_length. split; lia.
  Qed.

  Definition shaped (s : ast) : Prop := length (a_vals s) = S (length ls) /\ length (a_rows s) = S (length ls) /\ (1 <= length ls)%nat.

  Ltac chain := repeat match goal with
    | |- context [trialStep func ls rnd ?s ?i ?y ?f ?m] => let H := fresh "Tr" in let e := fresh in
        assert (H := trial_inv s i y f m); assert (e := trial_len s i y f m); destruct (trialStep func ls rnd s i y f m) as [? ?]; cbn [fst snd] in H, e
    end.

  Lemma swap_inv s i : inv s -> (1 <= length (a_vals s))%nat -> (i < length (a_vals s))%nat -> inv (swap s i).
  Proof.
    intros I N B. unfold swap. destruct (0 <? i)%nat; auto. eapply inv_same; [..|exact I]; try reflexivity.
    cbn [a_vals]. intros v H. assert (H0 : forall k, (k < length (a_vals s))%nat -> seen_at s (val s k)) by (intros; apply I, nth_In; lia).
    apply upd_In in H. destruct H as [->|H]; [apply H0; lia|]. apply upd_In in H. destruct H as [->|H]; [apply H0; lia|]. apply I; auto.
  Qed.

  Lemma swap_len s i : length (a_vals (swap s i)) = length (a_vals s) /\ length (a_rows (swap s i)) = length (a_rows s).
  Proof. unfold swap. destruct (0 <? i)%nat; cbn [a_vals a_rows]; rewrite ?upd_length; auto. Qed.

  Lemma inv_draw s k : inv s -> inv (draw s k).
  Proof. intros I. eapply inv_same; [..|exact I]; try reflexivity. apply I. Qed.
  Lemma inv_moved s k : inv s -> inv (moved s k).
  Proof. intros I. eapply inv_same; [..|exact I]; try reflexivity. apply I. Qed.

  Lemma turn_inv s tr : inv s -> shaped s ->
    inv (snd (fst (turn func ls abstol reltol callback rnd s tr))) /\ shaped (snd (fst (turn func ls abstol reltol callback rnd s tr))).
  Proof.
    intros I S. unfold turn. set (z := select _). set (s0 := draw s _).
    assert (I0 : inv s0) by (apply inv_draw; auto).
    assert (S0 : shaped s0) by exact S. clearbody s0.
    assert (B : (z_ilo z < length (a_vals s0))%nat /\ (z_ihi z < length (a_vals s0))%nat).
    { destruct S as (e & _ & ?), S0 as (e0 & _). rewrite e0. unfold z. rewrite <- e, <- (fluct_len s). apply select_bound. rewrite fluct_len. lia. }
    clearbody z. destruct B as [Bl Bh].
    destruct (stops _ _ _).
    - assert (I1 : inv (swap s0 (z_ilo z))) by (apply swap_inv; auto; lia).
      assert (L1 := swap_len s0 (z_ilo z)). set (s1 := swap s0 _) in *. clearbody s1.
      assert (S1 : shaped s1) by (unfold shaped in *; destruct L1 as [-> ->]; auto).
      destruct (Rlt_dec _ _); [|destruct (a_iter s1 =? 0)%nat]; cbn [fst snd]; auto.
      + split. 2:{ unfold shaped in *; cbn; rewrite !upd_length; auto. }
        apply inv_moved. eapply inv_same; [..|exact I1]; try reflexivity.
        cbn. intros v H. apply upd_In in H. destruct H as [->|H]; apply I1; auto.
      + split; [apply inflate_inv; auto; destruct L1; lia|]. destruct (inflate_len s1 (z_ilo z) 10 Expand) as [a b].
        unfold shaped in *. rewrite a, b. auto.
    - assert (K : forall s1 : ast, inv s1 /\ shaped s1 ->
         inv (tickiter match callback with None => s1 | Some f => setrow s1 (z_ihi z) (f (row s1 (z_ihi z))) (val s1 (z_ihi z)) end) /\
         shaped (tickiter match callback with None => s1 | Some f => setrow s1 (z_ihi z) (f (row s1 (z_ihi z))) (val s1 (z_ihi z)) end)).
      { intros s1 [I1 S1]. destruct callback as [f|].
        - split; [|unfold shaped in *; cbn; rewrite !upd_length; auto]. eapply inv_same; [..|exact I1]; try reflexivity.
          cbn. intros v H. apply upd_In in H. destruct H as [->|H]; [|apply I1; auto].
          unfold val. destruct (Nat.lt_ge_cases (z_ihi z) (length (a_vals s1))); [apply I1, nth_In; auto|].
          destruct S0 as (e & ?), S1 as (e1 & ?). lia.
        - split; auto. eapply inv_same; [..|exact I1]; try reflexivity. apply I1. }
      assert (T : forall s1 y f m, inv s1 -> shaped s1 -> inv (snd (trialStep func ls rnd s1 (z_ihi z) y f m)) /\ shaped (snd (trialStep func ls rnd s1 (z_ihi z) y f m))).
      { intros s1 y f m I1 S1. split; [apply trial_inv; auto|]. destruct (trial_len s1 (z_ihi z) y f m) as [a b]. unfold shaped in *. rewrite a, b. auto. }
      destruct (T s0 (z_hi z) (-1) Reflect I0 S0) as [I1 S1]. destruct (trialStep func ls rnd s0 (z_ihi z) (z_hi z) (-1) Reflect) as [y1 s1]. cbn [snd] in *.
      destruct (Rlt_dec y1 _); [|destruct (Rle_dec _ y1)]; cbn [fst snd].
      + apply K, T; auto.
      + destruct (T s1 (z_hi z) (/2) Contract I1 S1) as [I2 S2]. destruct (trialStep func ls rnd s1 (z_ihi z) (z_hi z) (/2) Contract) as [y2 s2]. cbn [snd] in *.
        destruct (Rle_dec _ y2); cbn [fst snd]; [|apply K; auto]. apply K. split.
        * apply inv_draw, inflate_inv; auto. destruct S0 as (e & _), S2 as (e2 & _). lia.
        * destruct (inflate_len s2 (z_ilo z) (/2) Shrink) as [a b]. unfold shaped in *. cbn. rewrite a, b. auto.
      + apply K; auto.
  Qed.

  Lemma turns_inv fuel mx : forall s tr s' tr', inv s -> shaped s -> turns func ls abstol reltol callback rnd fuel mx s tr = Some (s', tr') -> inv s' /\ shaped s'.
  Proof.
    induction fuel as [|n IH]; intros s tr s' tr' I S E; [discriminate|]. cbn [turns] in E.
    destruct (_ <? _)%nat; [|injection E as <- _; auto].
    destruct (turn_inv s tr I S) as [I1 S1]. destruct (turn _ _ _ _ _ _ s tr) as [[b s1] t1]. cbn [fst snd] in *.
    destruct b; [injection E as <- _; auto|eauto].
  Qed.

  Lemma loop_inv fuel mx : forall s r s', inv s -> shaped s -> loop func ls abstol reltol maxiter0 steps cooling callback rnd fuel mx s = Some (r, s') ->
    inv s' /\ shaped s' /\ (forall x, r = Ret x -> x = xopt s').
  Proof.
    induction fuel as [|n IH]; intros s r s' I S E; [discriminate|]. cbn [loop] in E.
    destruct (_ <? _)%nat; [|injection E as <- <-; split; [auto|split; [auto|congruence]]].
    unfold temperatureStep in E. destruct (turns _ _ _ _ _ _ _ _ _ _) as [[s1 t1]|] eqn:F; [|discriminate].
    apply turns_inv in F; [|eapply inv_same; [..|exact I]; try reflexivity; apply I|exact S]. destruct F as [I1 S1].
    set (s2 := if Rlt_dec 0 (a_temp s1) then _ else _) in E.
    assert (I2 : inv s2 /\ shaped s2). { unfold s2. destruct (Rlt_dec _ _); auto. split; auto. eapply inv_same; [..|exact I1]; try reflexivity; apply I1. }
    clearbody s2. destruct (t1 =? 0)%nat; [|apply IH in E; tauto]. injection E as <- <-. split; [tauto|]. split; [tauto|congruence].
  Qed.

  (** the first simplex *)
  Lemma best_spec rows : rows <> [] -> In (snd (best func rows)) rows /\ fst (best func rows) = func (snd (best func rows)) /\
    forall p, In p rows -> fst (best func rows) <= func p.
  Proof.
    destruct rows as [|p r]; [congruence|]. intros _. cbn [best].
    assert (H : forall r b l, In (snd b) l -> fst b = func (snd b) -> (forall p, In p l -> fst b <= func p) ->
      let c := fold_left (fun b q => if Rlt_dec (func q) (fst b) then (func q, q) else b) r b in
      In (snd c) (l ++ r) /\ fst c = func (snd c) /\ forall p, In p (l ++ r) -> fst c <= func p).
    { clear. induction r as [|q r IH]; intros b l B E L; [rewrite app_nil_r; auto|]. cbn [fold_left].
      replace (l ++ q :: r) with ((l ++ [q]) ++ r) by (rewrite <- app_assoc; reflexivity).
      destruct (Rlt_dec _ _); apply IH; cbn [fst snd]; auto.
      - apply in_or_app; right; left; auto.
      - intros p H. apply in_app_or in H. destruct H as [H|[<-|[]]]; [apply L in H; lra|lra].
      - apply in_or_app; auto.
      - intros p H. apply in_app_or in H. destruct H as [H|[<-|[]]]; [auto|lra]. }
    apply (H r (func p, p) [p]); cbn; auto. intros q [<-|[]]. lra.
  Qed.

  Lemma corner_len x st i : length x = length ls -> length (corner ls x st i) = length ls.
  Proof. intros E. unfold corner, stayInLimits. rewrite map_length, !combine_length, upd_length. lia. Qed.

  Lemma make_inv x st t s : makeSimplex func ls x st t = Ret s -> length x = length ls -> (1 <= length ls)%nat -> inv s /\ shaped s.
  Proof.
    unfold makeSimplex. destruct (insides ls x st) as [[x' st']|]; [|discriminate].
    set (rows := map (corner ls x' st') (seq 0 (S (length x)))). assert (LR : length rows = S (length x)) by (unfold rows; rewrite map_length, seq_length; reflexivity).
    clearbody rows. cbv zeta. destruct (degenerate _ _); [discriminate|].
    intros E L N. injection E as <-. rewrite L in *.
    assert (NE : rows <> []) by (intros ->; discriminate LR).
    destruct (best_spec rows NE) as (b1 & b2 & b3). split.
    - constructor; cbn [a_seen a_fopt a_xopt a_vals]; unfold seen_at; cbn [a_seen].
      + intros p v H. apply in_map_iff in H. destruct H as (q & H & _). injection H as <- <-. reflexivity.
      + rewrite map_map. cbn. apply in_map_iff. exists (snd (best func rows)). auto.
      + intros v H. rewrite map_map in H. cbn in H. apply in_map_iff in H. destruct H as (q & <- & H). auto.
      + intros v H. rewrite map_map. exact H.
      + intros p H. injection H as <-. apply in_map_iff. exists (snd (best func rows)). rewrite b2. auto.
    - unfold shaped; cbn [a_vals a_rows]. rewrite !map_length. auto.
  Qed.
End Inv.
