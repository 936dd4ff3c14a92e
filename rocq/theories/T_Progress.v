(** C98: the lines an iterative fitter prints.  C99: the names of the parameters of a model that grows and shrinks. *)
From Coq Require Import List Arith Bool Lia.
From Verif Require Import M_Progress.
Import ListNotations.

Lemma trials_filter : forall v n it, trials v it n = filter (printed v (3 <=? v)) (seq (S it) n).
Proof.
  intros v n. induction n as [|n IH]; intros it; [reflexivity|]. cbn [trials seq filter]. rewrite IH. unfold report.
  destruct (printed v (3 <=? v) (S it)); reflexivity.
Qed.
(** With verbose 0 or 1 nothing is printed *)
Theorem C98_quiet : forall v n mx conv, v <= 1 -> lmLines v n = [] /\ robustLines v mx conv = [].
Proof.
  intros v n mx conv H. assert (P : forall f i, printed v f i = false) by (intros; unfold printed; destruct (Nat.ltb_spec 1 v); [lia|reflexivity]).
  split.
  - unfold lmLines. rewrite trials_filter. unfold report. rewrite P, app_nil_r. generalize (seq 1 n). induction l as [|i l IH]; [reflexivity|]. cbn [filter]. rewrite P. exact IH.
  - unfold robustLines. generalize 0 as i. induction mx as [|mx IH]; intros i; [reflexivity|]. cbn [robust]. unfold report. rewrite !P.
    destruct (conv i); [reflexivity|apply IH].
Qed.
(** With verbose 2: each hundredth iteration, and the last one *)
Theorem C98_brief : forall n i, In i (lmLines 2 n) <-> (1 <= i <= n /\ i mod 100 = 0) \/ i = n.
Proof.
  intros n i. unfold lmLines. rewrite trials_filter, in_app_iff, filter_In, in_seq. unfold report, printed. cbn [Nat.ltb Nat.leb andb].
  rewrite orb_false_r, orb_true_r. cbn [In]. rewrite Nat.eqb_eq. intuition lia.
Qed.
Lemma hundreds : forall n, length (filter (fun i => i mod 100 =? 0) (seq 1 n)) = n / 100.
Proof.
  induction n as [|n IH]; [reflexivity|]. rewrite seq_S, filter_app, app_length, IH. cbn [plus filter].
  assert (M := Nat.div_mod n 100 ltac:(lia)). assert (M' := Nat.div_mod (S n) 100 ltac:(lia)).
  assert (B := Nat.mod_upper_bound n 100 ltac:(lia)). assert (B' := Nat.mod_upper_bound (S n) 100 ltac:(lia)).
  destruct (Nat.eqb_spec (S n mod 100) 0); cbn [length]; nia.
Qed.
Theorem C98_brief_length : forall n, length (lmLines 2 n) = n / 100 + 1.
Proof.
  intros n. unfold lmLines. rewrite trials_filter, app_length. unfold report, printed. cbn [Nat.ltb Nat.leb andb]. rewrite orb_true_r. cbn [length]. f_equal.
  rewrite <- hundreds. f_equal. apply filter_ext. intros i. apply orb_false_r.
Qed.
Lemma printed_full : forall v i, 3 <= v -> printed v (3 <=? v) i = true.
Proof.
  intros v i H. unfold printed. destruct (Nat.ltb_spec 1 v); [|lia]. destruct (Nat.leb_spec 3 v); [|lia]. apply orb_true_r.
Qed.
Lemma printed_force : forall v i, 2 <= v -> printed v true i = true.
Proof. intros v i H. unfold printed. destruct (Nat.ltb_spec 1 v); [|lia]. apply orb_true_r. Qed.
(** With verbose 3 or more: all iterations in order.  The last one is there twice *)
Theorem C98_full : forall v n, 3 <= v -> lmLines v n = seq 1 n ++ [n].
Proof.
  intros v n H. unfold lmLines. rewrite trials_filter. unfold report. rewrite printed_force by lia. f_equal.
  generalize (seq 1 n). induction l as [|i l IH]; [reflexivity|]. cbn [filter]. rewrite printed_full by exact H. f_equal. exact IH.
Qed.
(** An iteration is not always printed once only: the last one of a Levenberg-Marquardt fit is printed twice. *)
Theorem C98_once_refuted : forall v n, 3 <= v -> 1 <= n -> count_occ Nat.eq_dec (lmLines v n) n = 2.
Proof.
  intros v n H Hn. rewrite C98_full, count_occ_app by exact H. cbn [count_occ]. destruct (Nat.eq_dec n n) as [_|]; [|contradiction].
  assert (E : count_occ Nat.eq_dec (seq 1 n) n = 1); [|lia].
  apply NoDup_count_occ'; [apply seq_NoDup|apply in_seq; lia].
Qed.
(** RobustShell: with verbose 3 or more all rounds once, up to the first that converges *)
Theorem C98_robust : forall v mx conv n, 3 <= v -> n < mx -> conv n = true -> (forall i, i < n -> conv i = false) ->
  robustLines v mx conv = seq 0 (S n).
Proof.
  intros v mx conv n H Hm Hc Hf. unfold robustLines.
  assert (G : forall k i todo, k + i = n -> k < todo -> robust v todo i conv = seq i (S k)).
  { induction k as [|k IH]; intros i todo Hk Hl; (destruct todo as [|todo]; [lia|]); cbn [robust].
    - cbn in Hk. subst i. rewrite Hc. unfold report. rewrite printed_force by lia. reflexivity.
    - rewrite Hf by lia. unfold report. rewrite printed_full by exact H. rewrite (IH (S i) todo) by lia. reflexivity. }
  apply G; lia.
Qed.
(** ... and when none converges all rounds, without a sign that the end was not reached *)
Theorem C98_robust_end : forall v mx conv, 3 <= v -> (forall i, i < mx -> conv i = false) -> robustLines v mx conv = seq 0 mx.
Proof.
  intros v mx conv H Hf. unfold robustLines.
  assert (G : forall todo i, todo + i = mx -> robust v todo i conv = seq i todo).
  { induction todo as [|todo IH]; intros i E; [reflexivity|]. cbn [robust seq]. rewrite Hf by lia. unfold report. rewrite printed_full by exact H.
    rewrite IH by lia. reflexivity. }
  apply G. lia.
Qed.
Theorem C98_robust_brief : forall mx conv n i, n < mx -> conv n = true -> (forall i, i < n -> conv i = false) ->
  In i (robustLines 2 mx conv) <-> (i < n /\ i mod 100 = 0) \/ i = n.
Proof.
  intros mx conv n i Hm Hc Hf. unfold robustLines.
  assert (G : forall k j todo, k + j = n -> k < todo -> In i (robust 2 todo j conv) <-> (j <= i < n /\ i mod 100 = 0) \/ i = n).
  { induction k as [|k IH]; intros j todo Hk Hl; (destruct todo as [|todo]; [lia|]); cbn [robust].
    - cbn in Hk. subst j. rewrite Hc. unfold report. rewrite printed_force by lia. cbn [In]. intuition lia.
    - rewrite Hf by lia. rewrite in_app_iff, (IH (S j) todo) by lia. unfold report, printed. cbn [Nat.ltb Nat.leb andb]. rewrite orb_false_r.
      destruct (Nat.eqb_spec (j mod 100) 0) as [E|E]; cbn [In].
      + split; [intros [[->|[]]|[[A B]|C]]; auto; left; split; try lia; exact B|]. intros [[A B]|C]; [|auto]. destruct (Nat.eq_dec j i); [auto|]. right; left. split; [lia|exact B].
      + split; [intros [[]|[[A B]|C]]; auto; left; split; try lia; exact B|]. intros [[A B]|C]; [|auto]. destruct (Nat.eq_dec j i) as [->|]; [contradiction|]. right; left. split; [lia|exact B]. }
  rewrite (G n 0 mx) by lia. intuition lia.
Qed.
(** The number of parameters in a line: five of them up to verbose 3, all at 4, and as many as verbose says above that *)
Theorem C98_shown : forall v, (v <= 3 -> maxShown v = Some 5) /\ maxShown 4 = None /\ (5 <= v -> maxShown v = Some v).
Proof.
  intros v. unfold maxShown. repeat split; intros H; destruct (Nat.ltb_spec v 4); try lia; [reflexivity|]. destruct (Nat.eqb_spec v 4); [lia|reflexivity].
Qed.
(** The default of maxIter goes with the number of parameters; a given one is kept, 0 as well *)
Theorem C98_maxiter : forall n np, maxIterOf (Some n) np = n /\ maxIterOf None np = 1000 * np.
Proof. split; reflexivity. Qed.
(** doPlot never makes a plot: when one is due it ends in an AttributeError. *)
Theorem C98_plot_refuted : forall f it force, doPlot f it force = AttributeError <-> force = true \/ (0 < f /\ it mod f = 0).
Proof.
  intros f it force. unfold doPlot. destruct force; [rewrite orb_true_r; split; auto|]. rewrite orb_false_r.
  destruct (Nat.ltb_spec 0 f), (Nat.eqb_spec (it mod f) 0); cbn [andb]; split; intros A; try discriminate; try reflexivity; auto; destruct A as [A|[A B]]; try discriminate; lia.
Qed.
Theorem C98_plot : forall it, doPlot 0 it false = NoPlot.
Proof. reflexivity. Qed.

Example C98_ex : lmLines 2 250 = [100; 200; 250] /\ lmLines 3 4 = [1; 2; 3; 4; 4] /\ lmLines 1 4 = []
  /\ robustLines 3 10 (fun i => i =? 3) = [0; 1; 2; 3] /\ robustLines 2 10 (fun i => i =? 3) = [0; 3] /\ robustLines 2 3 (fun i => i =? 3) = [0]
  /\ doPlot 10 30 false = AttributeError /\ doPlot 10 31 false = NoPlot /\ map maxShown [2; 4; 7] = [Some 5; None; Some 7].
Proof. repeat split; vm_compute; reflexivity. Qed.

(** ** C99 *)
Definition fits (m : nm) : Prop := length (n_names m) = n_npbase m.
Lemma apply_fits : forall m c m', fits m -> apply m c = Some m' -> fits m'.
Proof.
  intros m c m' F H. unfold fits in *. destruct c as [[|d]|d]; cbn [apply] in H.
  - injection H as <-. cbn. rewrite firstn_length. lia.
  - injection H as <-. cbn [alterNames n_npbase n_names]. rewrite map_length, seq_length. reflexivity.
  - destruct (Nat.ltb_spec (n_npbase m) d); [discriminate|]. injection H as <-. cbn [alterNames n_npbase n_names]. rewrite firstn_length. lia.
Qed.
(** After any sequence of births and deaths there is a name for each of the parameters, and for no other *)
Theorem C99_fits : forall l m m', fits m -> applyAll m l = Some m' -> fits m'.
Proof.
  induction l as [|c l IH]; intros m m' F H; cbn [applyAll] in H; [injection H as <-; exact F|].
  destruct (apply m c) as [m1|] eqn:E; [|discriminate]. apply (IH m1); [|exact H]. eapply apply_fits; eassumption.
Qed.
Theorem C99_named : forall c k, List.Forall fits c -> (exists n, nameOf c k = Some n) <-> k < list_sum (map n_npbase c).
Proof.
  intros c. induction c as [|m c IH]; intros k F; [cbn; split; [intros [n H]; discriminate|lia]|].
  inversion F as [|? ? Fm Fc]; subst. change (list_sum (map n_npbase (m :: c))) with (n_npbase m + list_sum (map n_npbase c)). cbn [nameOf].
  destruct (Nat.ltb_spec k (n_npbase m)) as [L|L].
  - split; [lia|]. intros _. destruct (nth_error (n_names m) k) as [n|] eqn:E; [exists n; reflexivity|]. apply nth_error_None in E. unfold fits in Fm. lia.
  - rewrite IH by exact Fc. lia.
Qed.
(** The number of parameters after all births and deaths *)
Fixpoint netto (n : nat) (l : list change) : option nat :=
  match l with
  | [] => Some n
  | Grow d :: r => netto (n + d) r
  | Shrink d :: r => if n <? d then None else netto (n - d) r
  end.
Theorem C99_number : forall l m, option_map n_npbase (applyAll m l) = netto (n_npbase m) l.
Proof.
  induction l as [|c l IH]; intros m; [reflexivity|]. destruct c as [[|d]|d]; cbn [applyAll apply netto].
  - rewrite IH. cbn [alterNames n_npbase]. f_equal. lia.
  - rewrite IH. reflexivity.
  - destruct (Nat.ltb_spec (n_npbase m) d); [reflexivity|]. rewrite IH. reflexivity.
Qed.
(** A death keeps the names of the parameters that are left ... *)
Theorem C99_shrink : forall m d m' k, apply m (Shrink d) = Some m' -> k < n_npbase m' -> nth_error (n_names m') k = nth_error (n_names m) k.
Proof.
  intros m d m' k H Hk. cbn [apply] in H. destruct (Nat.ltb_spec (n_npbase m) d); [discriminate|]. injection H as <-. cbn [alterNames n_npbase n_names] in *.
  revert k Hk. generalize (n_npbase m - d) (n_names m). intros n l. revert n. induction l as [|x l IH]; intros [|n] k Hk; try lia; [reflexivity|].
  destruct k as [|k]; [reflexivity|]. cbn. apply IH. lia.
Qed.
Theorem C99_shrink_error : forall m d, apply m (Shrink d) = None <-> n_npbase m < d.
Proof. intros m d. cbn [apply]. destruct (Nat.ltb_spec (n_npbase m) d); split; intros; try discriminate; try reflexivity; try assumption; lia. Qed.
(** ... but a birth numbers all of them again: the names the user gave to the parameters that are still there are lost. *)
Theorem C99_grow_refuted : forall m d m' k, 0 < d -> apply m (Grow d) = Some m' -> k < n_npbase m + d ->
  nth_error (n_names m') k = Some (Numbered k).
Proof.
  intros m d m' k Hd H Hk. destruct d as [|d]; [lia|]. cbn [apply] in H. injection H as <-. cbn [alterNames n_npbase n_names].
  rewrite nth_error_map. rewrite (nth_error_nth' _ 0) by (rewrite seq_length; exact Hk). rewrite seq_nth by exact Hk. reflexivity.
Qed.
(** With the default names nothing is lost: parameter k is parameter_k, always *)
Theorem C99_default : forall l n m', applyAll (mkN n (map Numbered (seq 0 n))) l = Some m' ->
  n_names m' = map Numbered (seq 0 (n_npbase m')).
Proof.
  intros l. assert (G : forall m, n_names m = map Numbered (seq 0 (n_npbase m)) -> forall m', applyAll m l = Some m' -> n_names m' = map Numbered (seq 0 (n_npbase m'))).
  { induction l as [|c l IH]; intros m E m' H; cbn [applyAll] in H; [injection H as <-; exact E|].
    destruct (apply m c) as [m1|] eqn:A; [|discriminate]. apply (IH m1); [|exact H].
    assert (F : forall a b, b <= a -> firstn b (map Numbered (seq 0 a)) = map Numbered (seq 0 b)).
    { intros a b L. rewrite firstn_map. f_equal. replace a with (b + (a - b)) by lia. rewrite seq_app, firstn_app, seq_length, Nat.sub_diag. cbn [firstn].
      rewrite app_nil_r. apply firstn_all2. rewrite seq_length. lia. }
    destruct c as [[|d]|d]; cbn [apply] in A.
    - injection A as <-. cbn [alterNames n_npbase n_names]. rewrite E. apply F. lia.
    - injection A as <-. reflexivity.
    - destruct (Nat.ltb_spec (n_npbase m) d); [discriminate|]. injection A as <-. cbn [alterNames n_npbase n_names]. rewrite E. apply F. lia. }
  intros n m' H. apply (G (mkN n (map Numbered (seq 0 n)))); [reflexivity|exact H].
Qed.
Example C99_ex : applyAll (mkN 2 [Given 7; Given 8]) [Shrink 1; Grow 2] = Some (mkN 3 [Numbered 0; Numbered 1; Numbered 2])
  /\ applyAll (mkN 2 [Given 7; Given 8]) [Shrink 1] = Some (mkN 1 [Given 7]) /\ applyAll (mkN 2 [Given 7; Given 8]) [Shrink 3] = None
  /\ fits (mkN 2 [Given 7; Given 8]) /\ nameOf [mkN 1 [Given 3]; mkN 2 [Given 7; Given 8]] 2 = Some (Given 8).
Proof. repeat split. Qed.

Print Assumptions C98_full.
Print Assumptions C98_robust.
Print Assumptions C99_fits.
Print Assumptions C99_default.
