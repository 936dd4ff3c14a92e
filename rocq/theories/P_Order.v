(** Proofs about the order engines. *)
From Coq Require Import List Arith ZArith Permutation Lia Bool Sorted.
From Verif Require Import L_List M_Order S_Order.
Import ListNotations.

(** ** Slices *)

Lemma slice_split {A} (a b : nat) (l : list A) :
  a <= b -> skipn a l = slice a b l ++ skipn b l.
Proof.
  intros H. unfold slice.
  replace (skipn b l) with (skipn (b - a) (skipn a l)).
  - symmetry; apply firstn_skipn.
  - rewrite skipn_skipn. f_equal; lia.
Qed.

Lemma firstn_slice {A} (a b : nat) (l : list A) :
  a <= b -> firstn b l = firstn a l ++ slice a b l.
Proof.
  intros H. unfold slice.
  replace (firstn b l) with (firstn (a + (b - a)) l) by (f_equal; lia).
  rewrite <- (firstn_skipn a l) at 1.
  rewrite firstn_app.
  destruct (le_lt_dec a (length l)) as [L|L].
  - rewrite firstn_length_le by exact L.
    rewrite firstn_all2 by (rewrite firstn_length_le; lia).
    f_equal. f_equal. lia.
  - rewrite (firstn_all2 (n:=a)) by lia.
    rewrite (firstn_all2 (n:=a + (b-a))) by lia.
    rewrite (skipn_all2 (n:=a)) by lia. rewrite !firstn_nil. reflexivity.
Qed.

Lemma perm_rollneg {A} (k : nat) (l : list A) : Permutation l (rollneg k l).
Proof.
  unfold rollneg. rewrite <- (firstn_skipn k l) at 1. apply Permutation_app_comm.
Qed.

Lemma perm_roll {A} (k : nat) (l : list A) : Permutation l (roll k l).
Proof.
  unfold roll. rewrite <- (firstn_skipn (length l - k) l) at 1. apply Permutation_app_comm.
Qed.

Lemma perm_reverse_head {A} (t : nat) (l : list A) : Permutation l (reverse_head t l).
Proof.
  unfold reverse_head. rewrite <- (firstn_skipn t l) at 1.
  apply Permutation_app_tail, Permutation_rev.
Qed.

Lemma perm_move {A} (src des t : nat) (l : list A) :
  src < length l -> des < length l -> src <> des ->
  t <= (if src <? des then des - src else length l - src) ->
  Permutation l (move_ptry src des t l).
Proof.
  intros Hs Hd Hn Ht. unfold move_ptry.
  destruct (Nat.ltb_spec src des) as [L|L].
  - transitivity (firstn src l ++ (slice src (src + t) l ++ (slice (src + t) des l ++ skipn des l))).
    + rewrite <- (slice_split (src + t) des l) by lia.
      rewrite <- (slice_split src (src + t) l) by lia.
      rewrite firstn_skipn. reflexivity.
    + rewrite (app_assoc (slice (src+t) des l)).
      etransitivity; [apply Permutation_app_comm|].
      rewrite !app_assoc. apply Permutation_app_tail.
      rewrite <- !app_assoc. rewrite app_assoc.
      etransitivity.
      { apply Permutation_app_tail. apply Permutation_app_comm. }
      rewrite <- app_assoc. reflexivity.
  - transitivity (firstn des l ++ (slice des src l ++ (slice src (src + t) l ++ skipn (src + t) l))).
    + rewrite <- (slice_split src (src + t) l) by lia.
      rewrite <- (slice_split des src l) by lia.
      rewrite firstn_skipn. reflexivity.
    + set (a := firstn des l). set (b := slice des src l).
      set (c := slice src (src + t) l). set (e := skipn (src + t) l).
      transitivity ((a ++ b ++ c) ++ e).
      { rewrite <- !app_assoc. reflexivity. }
      etransitivity; [apply Permutation_app_comm|].
      apply Permutation_app_head, Permutation_app_head, Permutation_app_comm.
Qed.

Lemma upd_length {A} i (x : A) l : length (upd i x l) = length l.
Proof. revert i; induction l as [|y l IH]; intros [|i]; simpl; auto. Qed.

Lemma upd_nth_same {A} i (x : A) l : i < length l -> nth_error (upd i x l) i = Some x.
Proof.
  revert i; induction l as [|y l IH]; intros [|i] H; simpl in *; try lia; auto.
  apply IH; lia.
Qed.

Lemma upd_nth_other {A} i j (x : A) l : i <> j -> nth_error (upd i x l) j = nth_error l j.
Proof.
  revert i j; induction l as [|y l IH]; intros [|i] [|j] H; simpl; auto; try congruence.
Qed.

Lemma upd_app_r {A} i (x : A) l1 l2 :
  upd (length l1 + i) x (l1 ++ l2) = l1 ++ upd i x l2.
Proof. induction l1; simpl; f_equal; auto. Qed.

Lemma upd_app_l {A} i (x : A) l1 l2 :
  i < length l1 -> upd i x (l1 ++ l2) = upd i x l1 ++ l2.
Proof.
  revert i; induction l1 as [|y l1 IH]; intros [|i] H; simpl in *; try lia; auto.
  f_equal; apply IH; lia.
Qed.

Lemma perm_upd {A} i (x y : A) l :
  nth_error l i = Some y -> Permutation (y :: upd i x l) (x :: l).
Proof.
  revert i; induction l as [|z l IH]; intros [|i] H; simpl in *; try discriminate.
  - injection H as <-. constructor.
  - etransitivity; [apply perm_swap|].
    etransitivity; [apply perm_skip, IH, H|]. apply perm_swap.
Qed.

Lemma perm_switch {A} (src des : nat) (l p : list A) :
  switch_ptry src des l = Some p -> src <> des -> Permutation l p.
Proof.
  unfold switch_ptry. destruct (nth_error l src) as [a|] eqn:Ea; [|discriminate].
  destruct (nth_error l des) as [b|] eqn:Eb; [|discriminate].
  intros H Hn; injection H as <-.
  assert (E1 : Permutation (a :: upd src b l) (b :: l)) by (apply perm_upd; exact Ea).
  assert (Eb' : nth_error (upd src b l) des = Some b) by (rewrite upd_nth_other; auto).
  assert (E2 : Permutation (b :: upd des a (upd src b l)) (a :: upd src b l))
    by (apply perm_upd; exact Eb').
  apply Permutation_cons_inv with (a := b).
  symmetry. etransitivity; [exact E2|exact E1].
Qed.

Lemma perm_near {A} (ks kmin : nat) (l p : list A) :
  near_ptry ks kmin l = Some p -> Permutation l p.
Proof.
  unfold near_ptry. set (q := roll ks l).
  destruct (nth_error q kmin) as [x|] eqn:E; [|discriminate].
  intros H; injection H as <-.
  etransitivity; [|apply perm_rollneg].
  etransitivity; [apply (perm_roll ks)|]. fold q.
  destruct (nth_error_split q kmin E) as (l1 & l2 & Hq & Hl).
  rewrite Hq. subst kmin.
  rewrite firstn_app, firstn_all, Nat.sub_diag, firstn_O, app_nil_r.
  assert (Hs : skipn (S (length l1)) (l1 ++ x :: l2) = l2).
  { rewrite skipn_app, skipn_all2 by lia.
    replace (S (length l1) - length l1) with 1 by lia. reflexivity. }
  cbn [skipn] in Hs. rewrite Hs. apply Permutation_app_head, Permutation_cons_append.
Qed.

(** ** The trial loop *)

Section Trial.
  Context {A : Type} (lik : list A -> Z) (low : Z) (propose : nat -> list A)
          (rnd : nat -> nat -> nat).
  Hypothesis Hrnd : forall i t, 0 < t -> rnd i t < t.

  Lemma trial_total tmin ret fuel i t :
    t < fuel -> exists o, trial_loop lik low propose rnd tmin ret fuel i t = Some o.
  Proof.
    revert i t; induction fuel as [|f IH]; intros i t H; [lia|]. simpl.
    destruct (Nat.ltb_spec tmin t) as [L|L]; [|eauto].
    destruct (low <=? lik (propose t))%Z; [eauto|].
    apply IH. specialize (Hrnd i t). lia.
  Qed.

  (** whatever is stored was proposed with some trial length not above the first one,
      passed the limit, and that length is the returned count *)
  Lemma trial_stored tmin ret fuel i t m p :
    trial_loop lik low propose rnd tmin ret fuel i t = Some (m, Some p) ->
    p = propose m /\ tmin < m <= t /\ (low <= lik p)%Z.
  Proof.
    revert i t; induction fuel as [|f IH]; intros i t H; [discriminate|]. simpl in H.
    destruct (Nat.ltb_spec tmin t) as [L|L]; [|discriminate].
    destruct (Z.leb_spec low (lik (propose t))) as [B|B].
    - injection H as <- <-. repeat split; auto.
    - specialize (IH _ _ H). specialize (Hrnd i t). intuition lia.
  Qed.

  Lemma trial_none tmin ret fuel i t m :
    trial_loop lik low propose rnd tmin ret fuel i t = Some (m, None) ->
    exists t', t' <= tmin /\ m = ret t'.
  Proof.
    revert i t; induction fuel as [|f IH]; intros i t H; [discriminate|]. simpl in H.
    destruct (Nat.ltb_spec tmin t) as [L|L].
    - destruct (Z.leb_spec low (lik (propose t))) as [B|B]; [discriminate|].
      exact (IH _ _ H).
    - injection H as <-. eauto.
  Qed.
End Trial.

(** ** C01 *)

Lemma run_draw_total {A} (lik : list A -> Z) low d param :
  valid_draw (length param) d -> exists o, run_draw lik low d param = Some o.
Proof.
  destruct d; simpl; intros V.
  - apply trial_total; [|lia]. tauto.
  - apply trial_total; [|lia]. tauto.
  - apply trial_total; [|lia]. tauto.
  - unfold switch_once, switch_ptry.
    destruct (nth_error param src) eqn:E1; [|apply nth_error_None in E1; lia].
    destruct (nth_error param des) eqn:E2; [|apply nth_error_None in E2; lia].
    eauto.
  - unfold loop_once. destruct cross; eauto.
  - unfold near_once. destruct (kmin =? 1); [eauto|].
    unfold near_ptry. destruct (nth_error (roll ks param) kmin) eqn:E; [eauto|].
    apply nth_error_None in E. rewrite <- (Permutation_length (perm_roll ks param)) in E. lia.
  - unfold startorder_once; eauto.
Qed.

Lemma run_draw_perm {A} (lik : list A -> Z) low d param m p :
  valid_draw (length param) d -> run_draw lik low d param = Some (m, Some p) ->
  Permutation param p.
Proof.
  destruct d; simpl; intros V H.
  - destruct V as (V1 & V2 & V3 & V4 & V5).
    destruct (trial_stored _ _ _ _ V5 _ _ _ _ _ _ _ H) as (-> & Ht & _).
    apply perm_move; auto. unfold move_t0 in Ht. lia.
  - destruct (trial_stored _ _ _ _ (proj2 (proj2 V)) _ _ _ _ _ _ _ H) as (-> & _).
    unfold reverse_ptry. etransitivity; [|apply perm_reverse_head].
    apply (perm_rollneg src param).
  - destruct V as (V1 & V2 & V3 & V4).
    destruct (trial_stored _ _ _ _ V4 _ _ _ _ _ _ _ H) as (-> & _).
    unfold shuffle_ptry. etransitivity; [apply (perm_roll src)|].
    rewrite <- (firstn_skipn (src + m) (roll src param)) at 1.
    apply Permutation_app_tail, V3.
  - unfold switch_once in H. destruct (switch_ptry src des param) eqn:E; [|discriminate].
    destruct (low <=? lik l)%Z; [|discriminate]. injection H as _ <-.
    eapply perm_switch; [exact E|tauto].
  - unfold loop_once in H. destruct cross as [t|]; [|discriminate].
    destruct (low <=? lik (loop_ptry ks t param))%Z; [|discriminate].
    injection H as _ <-. unfold loop_ptry.
    etransitivity; [|apply perm_rollneg]. etransitivity; [|apply perm_reverse_head].
    apply perm_roll.
  - unfold near_once in H. destruct (kmin =? 1); [discriminate|].
    destruct (near_ptry ks kmin param) eqn:E; [|discriminate].
    destruct (low <=? lik l)%Z; [|discriminate]. injection H as _ <-.
    eapply perm_near; exact E.
  - unfold startorder_once, startorder_ptry in H. injection H as _ <-. apply V.
Qed.

(** accepted lists are above the limit (StartOrder excepted: it has no test) *)
Lemma run_draw_above {A} (lik : list A -> Z) low d param m p :
  valid_draw (length param) d -> (forall perm, d <> DStart perm) ->
  run_draw lik low d param = Some (m, Some p) -> (low <= lik p)%Z.
Proof.
  destruct d; simpl; intros V N H.
  - destruct (trial_stored _ _ _ _ (proj2 (proj2 (proj2 (proj2 V)))) _ _ _ _ _ _ _ H); tauto.
  - destruct (trial_stored _ _ _ _ (proj2 (proj2 V)) _ _ _ _ _ _ _ H); tauto.
  - destruct (trial_stored _ _ _ _ (proj2 (proj2 (proj2 V))) _ _ _ _ _ _ _ H); tauto.
  - unfold switch_once in H. destruct (switch_ptry src des param); [|discriminate].
    destruct (Z.leb_spec low (lik l)); [|discriminate]. injection H as _ <-; auto.
  - unfold loop_once in H. destruct cross as [t|]; [|discriminate].
    destruct (Z.leb_spec low (lik (loop_ptry ks t param))); [|discriminate].
    injection H as _ <-; auto.
  - unfold near_once in H. destruct (kmin =? 1); [discriminate|].
    destruct (near_ptry ks kmin param); [|discriminate].
    destruct (Z.leb_spec low (lik l)); [|discriminate]. injection H as _ <-; auto.
  - exfalso; eapply N; reflexivity.
Qed.

(** ** The ensemble *)

Definition ok_walker (lik : list nat -> Z) (n m : nat) (w : walker nat) : Prop :=
  is_tour n (wpars w) /\ wlogL w = lik (wpars w) /\ wid w < m.

Lemma Forall_upd {A} (P : A -> Prop) i x l : Forall P l -> P x -> Forall P (upd i x l).
Proof.
  intros H; revert i; induction H as [|y l Hy Hl IH]; intros [|i] Hx; simpl; auto.
Qed.

Lemma ins_walker_perm {A} (w : walker A) ws : Permutation (w :: ws) (ins_walker w ws).
Proof.
  induction ws as [|v r IH]; simpl; auto.
  destruct (wlogL w <=? wlogL v)%Z; auto.
  etransitivity; [apply perm_swap|]. apply perm_skip, IH.
Qed.

Lemma sort_walkers_perm {A} (ws : list (walker A)) : Permutation ws (sort_walkers ws).
Proof.
  induction ws as [|w r IH]; simpl; auto.
  etransitivity; [apply perm_skip, IH|apply ins_walker_perm].
Qed.

Lemma sort_walkers_sorted {A} (ws : list (walker A)) :
  Sorted (fun a b => (wlogL a <= wlogL b)%Z) (sort_walkers ws).
Proof.
  induction ws as [|w r IH]; simpl; auto.
  assert (G : forall w (l : list (walker A)), Sorted (fun a b => (wlogL a <= wlogL b)%Z) l ->
              Sorted (fun a b => (wlogL a <= wlogL b)%Z) (ins_walker w l)).
  { clear. intros w l H. induction H as [|v l Hl IH Hh]; simpl; auto.
    destruct (Z.leb_spec (wlogL w) (wlogL v)); auto.
    constructor; auto. destruct l as [|u l]; simpl in *.
    - constructor; lia.
    - destruct (Z.leb_spec (wlogL w) (wlogL u)); constructor; try lia.
      inversion Hh; auto. }
  apply G, IH.
Qed.

Lemma tour_trans n l p : is_tour n l -> Permutation l p -> is_tour n p.
Proof. unfold is_tour. intros; etransitivity; eauto. Qed.

Lemma tour_length n l : is_tour n l -> length l = n.
Proof. intros H. rewrite <- (Permutation_length H). apply seq_length. Qed.

Lemma order_step_inv lik n count ws e :
  Forall (ok_walker lik n (length ws)) ws -> valid_event n (length ws) e ->
  exists count' ws', order_step lik (Some (count, ws)) e = Some (count', ws') /\
    length ws' = length ws /\ Forall (ok_walker lik n (length ws')) ws'.
Proof.
  intros F V. destruct e as [kw low d| |s d]; simpl in *.
  - destruct V as [Vk Vd]. destruct (nth_error ws kw) as [w|] eqn:E.
    2:{ apply nth_error_None in E. lia. }
    assert (Hw : ok_walker lik n (length ws) w)
      by (rewrite Forall_forall in F; apply F; eapply nth_error_In; eauto).
    destruct Hw as (Ht & Hl & Hi).
    rewrite <- (tour_length _ _ Ht) in Vd.
    destruct (run_draw_total lik low d (wpars w) Vd) as [[m st] Ho]. rewrite Ho.
    unfold order_store. rewrite E. destruct st as [p|].
    + unfold eng_setWalker, wl_setWalker.
      destruct (Nat.ltb_spec (wid w) (length ws)); [|lia].
      do 2 eexists; split; [reflexivity|]. rewrite upd_length. split; auto.
      apply Forall_upd; auto. repeat split; simpl.
      * eapply tour_trans; [exact Ht|]. eapply run_draw_perm; eauto.
      * destruct (nth_error ws (wid w)) as [v|] eqn:Ev; [|apply nth_error_None in Ev; lia].
        rewrite Forall_forall in F. apply F. eapply nth_error_In; eauto.
    + do 2 eexists; repeat split; auto.
  - do 2 eexists; split; [reflexivity|].
    rewrite <- (Permutation_length (sort_walkers_perm ws)). split; auto.
    rewrite Forall_forall in *. intros x Hx. apply F.
    eapply Permutation_in; [symmetry; apply sort_walkers_perm|exact Hx].
  - unfold copy_walker.
    destruct (nth_error ws s) as [ws1|] eqn:E1; [|apply nth_error_None in E1; lia].
    destruct (nth_error ws d) as [wd|] eqn:E2; [|apply nth_error_None in E2; lia].
    simpl. do 2 eexists; split; [reflexivity|]. rewrite upd_length. split; auto.
    apply Forall_upd; auto. rewrite Forall_forall in F.
    destruct (F ws1) as (H1 & H2 & _); [eapply nth_error_In; eauto|].
    destruct (F wd) as (_ & _ & H3); [eapply nth_error_In; eauto|].
    repeat split; auto.
Qed.

Lemma order_run_inv lik n es : forall count ws,
  Forall (ok_walker lik n (length ws)) ws -> Forall (valid_event n (length ws)) es ->
  exists count' ws', order_run lik (Some (count, ws)) es = Some (count', ws') /\
    length ws' = length ws /\ Forall (ok_walker lik n (length ws')) ws'.
Proof.
  induction es as [|e es IH]; intros count ws F V.
  - do 2 eexists; repeat split; auto.
  - inversion V as [|? ? Ve Ves]; subst.
    destruct (order_step_inv lik n count ws e F Ve) as (c' & ws' & E & L & F').
    unfold order_run in *. cbn [fold_left]. rewrite E.
    rewrite <- L in Ves. destruct (IH c' ws' F' Ves) as (c2 & ws2 & E2 & L2 & F2).
    rewrite E2. do 2 eexists; split; [reflexivity|]. split; [lia|exact F2].
Qed.

Lemma add_walkers_ok lik n (pars : list (list nat)) :
  Forall (is_tour n) pars -> Forall (ok_walker lik n (length pars)) (add_walkers lik pars).
Proof.
  intros F. unfold add_walkers. rewrite Forall_forall in *. intros w Hw.
  apply in_map_iff in Hw. destruct Hw as [[k p] [<- Hin]].
  split; [|split]; simpl; auto.
  - apply F. eapply in_combine_r; eauto.
  - apply in_combine_l in Hin. apply in_seq in Hin. lia.
Qed.

Lemma add_walkers_length {A} lik (pars : list (list A)) :
  length (add_walkers lik pars) = length pars.
Proof. unfold add_walkers. rewrite map_length, combine_length, seq_length. lia. Qed.

(** every run of every length keeps every walker a tour with its own likelihood *)
Lemma order_runs_keep_tours lik n pars count es :
  Forall (is_tour n) pars -> Forall (valid_event n (length pars)) es ->
  exists count' ws', order_run lik (Some (count, add_walkers lik pars)) es = Some (count', ws') /\
    length ws' = length pars /\
    Forall (fun w => is_tour n (wpars w) /\ wlogL w = lik (wpars w)) ws'.
Proof.
  intros F V. rewrite <- (add_walkers_length lik pars) in V.
  destruct (order_run_inv lik n es count (add_walkers lik pars)) as (c & ws & E & L & F').
  - rewrite add_walkers_length. apply add_walkers_ok, F.
  - exact V.
  - exists c, ws. split; [exact E|]. rewrite L, add_walkers_length. split; auto.
    eapply Forall_impl; [|exact F']. intros w (H1 & H2 & _); auto.
Qed.

(** ** C02 *)

Lemma cont_store_frame {A} (lik : list A -> Z) count ws kw stored :
  kw < length ws -> only_changed kw ws (snd (cont_store lik false count ws kw stored)).
Proof.
  intros H. unfold cont_store. destruct stored as [p|]; simpl.
  - unfold eng_setWalker, wl_setWalker. destruct (Nat.ltb_spec kw (length ws)); [|lia].
    simpl. split; [apply upd_length|]. intros j Hj. apply upd_nth_other; auto.
  - split; auto.
Qed.

Lemma cont_store_new {A} (lik : list A -> Z) count ws kw p w :
  nth_error ws kw = Some w ->
  nth_error (snd (cont_store lik false count ws kw (Some p))) kw = Some (mkW (wid w) p (lik p)).
Proof.
  intros H. unfold cont_store, eng_setWalker, wl_setWalker. simpl.
  assert (L : kw < length ws) by (apply nth_error_Some; congruence).
  destruct (Nat.ltb_spec kw (length ws)); [|lia]. rewrite H. simpl.
  apply upd_nth_same; auto.
Qed.

(** appending (phantom mode) leaves all walkers alone *)
Lemma cont_store_append {A} (lik : list A -> Z) count ws kw p :
  cont_store lik true count ws kw (Some p) = (S count, ws ++ [mkW count p (lik p)]).
Proof.
  unfold cont_store, eng_setWalker, wl_setWalker.
  rewrite (proj2 (Nat.ltb_ge _ _) (Nat.le_refl (length ws))). reflexivity.
Qed.

Lemma order_store_frame_ids {A} (lik : list A -> Z) count ws kw w stored :
  nth_error ws kw = Some w -> wid w = kw ->
  exists c ws', order_store lik count ws kw stored = Some (c, ws') /\ only_changed kw ws ws'.
Proof.
  intros E Hid. unfold order_store. rewrite E. destruct stored as [p|].
  - assert (L : kw < length ws) by (apply nth_error_Some; congruence).
    rewrite Hid. unfold eng_setWalker, wl_setWalker.
    destruct (Nat.ltb_spec kw (length ws)); [|lia].
    do 2 eexists; split; [reflexivity|]. split; [apply upd_length|].
    intros j Hj. apply upd_nth_other; auto.
  - do 2 eexists; split; [reflexivity|]. split; auto.
Qed.

(** ** C03 *)

Lemma move_count_iff_stored {A} (lik : list A -> Z) low rnd src des g param m st :
  valid_draw (length param) (DMove (A:=A) src des g rnd) ->
  move_once lik low rnd src des g param = Some (m, st) ->
  (m <> 0 <-> st <> None).
Proof.
  intros (V1 & V2 & V3 & V4 & V5) H. unfold move_once in H. destruct st as [p|].
  - destruct (trial_stored _ _ _ _ V5 _ _ _ _ _ _ _ H). split; [congruence|lia].
  - destruct (trial_none _ _ _ _ _ _ _ _ _ _ H) as (t & Ht & ->). split; [lia|congruence].
Qed.

Lemma shuffle_count_iff_stored {A} (lik : list A -> Z) low rnd perm src g param m st :
  valid_draw (length param) (DShuffle src g perm rnd) ->
  shuffle_once lik low rnd perm src g param = Some (m, st) ->
  (m <> 0 <-> st <> None).
Proof.
  intros (V1 & V2 & V3 & V5) H. unfold shuffle_once in H. destruct st as [p|].
  - destruct (trial_stored _ _ _ _ V5 _ _ _ _ _ _ _ H). split; [congruence|lia].
  - destruct (trial_none _ _ _ _ _ _ _ _ _ _ H) as (t & Ht & ->). split; [lia|congruence].
Qed.

Lemma simple_count_iff_stored {A} (lik : list A -> Z) low (d : order_draw A) param m st :
  valid_draw (length param) d -> param <> [] ->
  match d with DReverse _ _ _ => False | _ => True end ->
  run_draw lik low d param = Some (m, st) ->
  (m <> 0 <-> st <> None).
Proof.
  intros V Hp Hd H. destruct d; simpl in H.
  - eapply move_count_iff_stored; eauto.
  - contradiction.
  - eapply shuffle_count_iff_stored; eauto.
  - unfold switch_once in H. destruct (switch_ptry src des param); [|discriminate].
    destruct (low <=? lik l)%Z; injection H as <- <-; split; congruence.
  - unfold loop_once in H. destruct cross as [t|].
    + destruct V as [_ V]. specialize (V t eq_refl).
      destruct (low <=? lik (loop_ptry ks t param))%Z; injection H as <- <-;
        split; try congruence; lia.
    + injection H as <- <-; split; congruence.
  - unfold near_once in H. destruct (kmin =? 1); [injection H as <- <-; split; congruence|].
    destruct (near_ptry ks kmin param); [|discriminate].
    destruct (low <=? lik l)%Z; injection H as <- <-; split; congruence.
  - unfold startorder_once in H. injection H as <- <-. split; [congruence|].
    destruct param; simpl; [congruence|lia].
Qed.

(** ReverseEngine: a rejected last trial of length 1 is reported as one move *)
Lemma reverse_count_refuted :
  exists (lik : list nat -> Z) low rnd src g param m,
    valid_draw (length param) (DReverse (A:=nat) src g rnd) /\
    is_tour (length param) param /\
    reverse_once lik low rnd src g param = Some (m, None) /\ m <> 0.
Proof.
  exists (fun _ => 0%Z), 1%Z, (fun _ t => t - 1), 0, 1, [0;1;2;3], 1.
  repeat split; simpl; try lia.
  unfold is_tour. reflexivity.
Qed.

(** what remains true of ReverseEngine *)
Lemma reverse_count_partial {A} (lik : list A -> Z) low rnd src g param m st :
  valid_draw (length param) (DReverse (A:=A) src g rnd) ->
  reverse_once lik low rnd src g param = Some (m, st) ->
  (2 <= m <-> st <> None).
Proof.
  intros (V1 & V2 & V5) H. unfold reverse_once in H. destruct st as [p|].
  - destruct (trial_stored _ _ _ _ V5 _ _ _ _ _ _ _ H). split; [congruence|lia].
  - destruct (trial_none _ _ _ _ _ _ _ _ _ _ H) as (t & Ht & ->). split; [lia|congruence].
Qed.

(** consequence: OrderEngine.execute gives up trying after such a false success although
    it has trials left and a later try would have succeeded *)
Lemma order_execute_stops {W} (once : nat -> W -> W * nat) n k w :
  snd (once k w) <> 0 -> order_execute once (S n) k w = once k w.
Proof.
  intros H. simpl. destruct (once k w) as [w' t]. simpl in H.
  destruct (Nat.eqb_spec t 0); [contradiction|reflexivity].
Qed.

(** order_execute returns zero only if all trials returned zero, and stops at the first success *)
Lemma order_execute_spec {W} (once : nat -> W -> W * nat) n : forall k w w' t,
  order_execute once n k w = (w', t) -> t <> 0 ->
  exists j v, j < n /\ once (k + j) v = (w', t).
Proof.
  induction n as [|n IH]; intros k w w' t H Ht; simpl in H.
  - injection H as _ <-. contradiction.
  - destruct (once k w) as [w1 t1] eqn:E. destruct (Nat.eqb_spec t1 0).
    + destruct (IH _ _ _ _ H Ht) as (j & v & Hj & Hv). exists (S j), v.
      split; [lia|]. rewrite <- Hv. f_equal. lia.
    + injection H as <- <-. exists 0, w. rewrite Nat.add_0_r. split; [lia|auto].
Qed.

(** OrderEngine.execute is exactly: failing tries in sequence, then the first success, or
    all the trials failing *)
Lemma order_execute_exact {W} (once : nat -> W -> W * nat) n : forall k w w' t,
  order_execute once n k w = (w', t) ->
  (t = 0 /\ fails once k n w w') \/
  (t <> 0 /\ exists j v, j < n /\ fails once k j w v /\ once (k + j) v = (w', t)).
Proof.
  induction n as [|n IH]; intros k w w' t H; simpl in H.
  - injection H as <- <-. left. split; [reflexivity|constructor].
  - destruct (once k w) as [w1 t1] eqn:E. destruct (Nat.eqb_spec t1 0) as [->|N].
    + destruct (IH _ _ _ _ H) as [[-> F]|(Ht & j & v & Hj & F & Ho)].
      * left. split; [reflexivity|]. econstructor; eauto.
      * right. split; [exact Ht|]. exists (S j), v. split; [lia|]. split; [econstructor; eauto|].
        rewrite <- Ho. f_equal. lia.
    + injection H as <- <-. right. split; [exact N|]. exists 0, w.
      split; [lia|]. split; [constructor|]. rewrite Nat.add_0_r. exact E.
Qed.
