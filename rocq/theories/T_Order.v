(** Property theorems C01 - C04 (order problems). *)
From Coq Require Import List Arith ZArith Permutation Reals Lia Lra.
From Verif Require Import M_Order S_Order M_Salesman P_Order P_Salesman.
Import ListNotations.

(** C01: whatever the draws, a stored list is a permutation of the list it came from,
    and no exception is raised. *)
Theorem C01_proposals_permute :
  forall (A : Type) (lik : list A -> Z) (low : Z) (d : order_draw A) (param : list A),
    valid_draw (length param) d ->
    exists m st, run_draw lik low d param = Some (m, st) /\
                 forall p, st = Some p -> Permutation param p.
Proof.
  intros A lik low d param V. destruct (run_draw_total lik low d param V) as [[m st] H].
  exists m, st. split; [exact H|]. intros p ->. exact (run_draw_perm lik low d param m p V H).
Qed.
Print Assumptions C01_proposals_permute.

(** C01: after any run (any engines, draws, sorts and copies) every walker is a tour
    over the same nodes, carries its own log likelihood, and the ensemble has kept its size. *)
Theorem C01_runs_keep_tours :
  forall (lik : list nat -> Z) (n : nat) (pars : list (list nat)) (count : nat)
         (es : list (order_event nat)),
    Forall (is_tour n) pars -> Forall (valid_event n (length pars)) es ->
    exists count' ws', order_run lik (Some (count, add_walkers lik pars)) es = Some (count', ws') /\
      length ws' = length pars /\
      Forall (fun w => is_tour n (wpars w) /\ wlogL w = lik (wpars w)) ws'.
Proof. exact order_runs_keep_tours. Qed.
Print Assumptions C01_runs_keep_tours.

Example C01_hypotheses_met :
  Forall (is_tour 4) [[0;1;2;3]; [3;2;1;0]] /\
  Forall (valid_event (A:=nat) 4 2)
    [ESort; EEngine 1 (-5)%Z (DMove 0 2 1 (fun _ t => t - 1)); ECopy 0 1;
     EEngine 0 0%Z (DReverse 3 4 (fun _ t => t - 1)); EEngine 1 0%Z (DNear 2 3);
     EEngine 1 0%Z (DLoop 1 (Some 2)); EEngine 0 0%Z (DSwitch 1 3)].
Proof.
  split.
  - apply Forall_cons; [apply Permutation_refl|]. apply Forall_cons; [|apply Forall_nil].
    exact (Permutation_rev [0;1;2;3]).
  - repeat apply Forall_cons; try apply Forall_nil; simpl; repeat split; try lia;
      intros; try (injection H as <-); lia.
Qed.

(** C01 for stored lists: they respect the likelihood limit (StartOrder has no limit). *)
Theorem C01_stored_above_limit :
  forall (A : Type) (lik : list A -> Z) low (d : order_draw A) param m p,
    valid_draw (length param) d -> (forall perm, d <> DStart perm) ->
    run_draw lik low d param = Some (m, Some p) -> (low <= lik p)%Z.
Proof. exact @run_draw_above. Qed.
Print Assumptions C01_stored_above_limit.

(** C02 for the continuous engines: only walker kw changes, and it gets the new values. *)
Theorem C02_continuous_engines_frame :
  forall (A : Type) (lik : list A -> Z) count ws kw (w : walker A) p,
    nth_error ws kw = Some w ->
    let ws' := snd (cont_store lik false count ws kw (Some p)) in
    only_changed kw ws ws' /\ nth_error ws' kw = Some (mkW (wid w) p (lik p)).
Proof.
  intros A lik count ws kw w p H. split.
  - apply cont_store_frame. apply nth_error_Some. congruence.
  - exact (cont_store_new lik count ws kw p w H).
Qed.
Print Assumptions C02_continuous_engines_frame.

(** C02 in phantom mode: all present walkers are untouched, one is appended. *)
Theorem C02_append_frame :
  forall (A : Type) (lik : list A -> Z) count (ws : list (walker A)) kw p,
    cont_store lik true count ws kw (Some p) = (S count, ws ++ [mkW count p (lik p)]).
Proof. exact @cont_store_append. Qed.
Print Assumptions C02_append_frame.

(** C02 fails for the order engines: there is a reachable ensemble (two walkers as made by
    addWalkers, sorted once) and a valid engine call for walker kw that overwrites the
    other walker and leaves walker kw as it was. *)
Theorem C02_order_engines_frame_refuted :
  exists (lik : list nat -> Z) (pars : list (list nat)) (kw : nat) (low : Z)
         (d : order_draw nat) count ws count' ws' j,
    Forall (is_tour 3) pars /\ valid_draw 3 d /\ kw < length pars /\
    order_run lik (Some (length pars, add_walkers lik pars)) [ESort] = Some (count, ws) /\
    order_step lik (Some (count, ws)) (EEngine kw low d) = Some (count', ws') /\
    j <> kw /\ nth_error ws' j <> nth_error ws j /\ nth_error ws' kw = nth_error ws kw.
Proof.
  exists (fun l => match l with 0 :: _ => 5%Z | _ => 3%Z end), [[0;1;2]; [1;2;0]], 0, 0%Z,
    (DSwitch 0 1).
  do 4 eexists. exists 1.
  split.
  { apply Forall_cons; [apply Permutation_refl|]. apply Forall_cons; [|apply Forall_nil].
    exact (Permutation_app_comm [0] [1;2]). }
  split; [simpl; lia|]. split; [simpl; lia|].
  split; [vm_compute; reflexivity|]. split; [vm_compute; reflexivity|].
  split; [lia|]. split; [vm_compute; discriminate|vm_compute; reflexivity].
Qed.
Print Assumptions C02_order_engines_frame_refuted.

(** C02 for order engines holds as long as identity and position agree. *)
Theorem C02_order_engines_frame_partial :
  forall (A : Type) (lik : list A -> Z) count ws kw (w : walker A) stored,
    nth_error ws kw = Some w -> wid w = kw ->
    exists c ws', order_store lik count ws kw stored = Some (c, ws') /\ only_changed kw ws ws'.
Proof. exact @order_store_frame_ids. Qed.
Print Assumptions C02_order_engines_frame_partial.

(** C03: a non-zero count means a stored tour, for all engines but ReverseEngine. *)
Theorem C03_count_means_move :
  forall (A : Type) (lik : list A -> Z) low (d : order_draw A) param m st,
    valid_draw (length param) d -> param <> [] ->
    match d with DReverse _ _ _ => False | _ => True end ->
    run_draw lik low d param = Some (m, st) ->
    (m <> 0 <-> st <> None).
Proof. exact @simple_count_iff_stored. Qed.
Print Assumptions C03_count_means_move.

Example C03_hypotheses_met :
  run_draw (fun _ => 1%Z) 0%Z (DMove (A:=nat) 0 2 1 (fun _ t => t - 1)) [0;1;2;3]
    = Some (1, Some [1;0;2;3]) /\
  run_draw (fun _ => (-1)%Z) 0%Z (DMove (A:=nat) 0 2 1 (fun _ t => t - 1)) [0;1;2;3]
    = Some (0, None).
Proof. split; reflexivity. Qed.

(** C03 fails for ReverseEngine: nothing stored, yet a count of 1 is returned. *)
Theorem C03_reverse_count_refuted :
  exists (lik : list nat -> Z) low rnd src g param m,
    valid_draw (length param) (DReverse (A:=nat) src g rnd) /\
    is_tour (length param) param /\
    reverse_once lik low rnd src g param = Some (m, None) /\ m <> 0.
Proof. exact reverse_count_refuted. Qed.
Print Assumptions C03_reverse_count_refuted.

(** C03 for ReverseEngine with the threshold that does hold. Missing: count 1. *)
Theorem C03_reverse_count_partial :
  forall (A : Type) (lik : list A -> Z) low rnd src g param m st,
    valid_draw (length param) (DReverse (A:=A) src g rnd) ->
    reverse_once lik low rnd src g param = Some (m, st) ->
    (2 <= m <-> st <> None).
Proof. exact @reverse_count_partial. Qed.
Print Assumptions C03_reverse_count_partial.

(** C03: OrderEngine.execute reports a count only if one of its (at most maxtrials) tries did. *)
Theorem C03_execute_reports_a_try :
  forall (W : Type) (once : nat -> W -> W * nat) n k w w' t,
    order_execute once n k w = (w', t) -> t <> 0 ->
    exists j v, j < n /\ once (k + j) v = (w', t).
Proof. exact @order_execute_spec. Qed.
Print Assumptions C03_execute_reports_a_try.

(** C03: the tries are made one after the other, each on what the previous one left, and stop
    at the first success or after maxtrials failures. *)
Theorem C03_execute_first_success :
  forall (W : Type) (once : nat -> W -> W * nat) n k w w' t,
    order_execute once n k w = (w', t) ->
    (t = 0 /\ fails once k n w w') \/
    (t <> 0 /\ exists j v, j < n /\ fails once k j w v /\ once (k + j) v = (w', t)).
Proof. exact @order_execute_exact. Qed.
Print Assumptions C03_execute_first_success.

Example C03_execute_third_try :
  order_execute (fun k w => (w + 1, if k =? 2 then 5 else 0)) 5 0 10 = (13, 5).
Proof. reflexivity. Qed.

Local Open Scope R_scope.

(** C04: the log likelihood is minus the length of the closed tour (d: charged leg). *)
Theorem C04_logL_is_minus_length :
  forall s l, s_oneway s = false ->
    dcf_logL s l = - closed_length (fun a b => s_dist s a b / s_scale s *
                       match s_weights s with None => 1 | Some w => w a end) l
    /\ dcf_logL_alt s l = dcf_logL s l.
Proof. intros s l H. split; [exact (dcf_is_minus_length s l H)|exact (dcf_alt s l)]. Qed.
Print Assumptions C04_logL_is_minus_length.

(** C04: starting the tour elsewhere does not matter. *)
Theorem C04_rotation_invariant :
  forall s l1 l2, s_oneway s = false -> dcf_logL s (l2 ++ l1) = dcf_logL s (l1 ++ l2).
Proof.
  intros s l1 l2 H. rewrite !dcf_is_minus_length by exact H. f_equal. exact (closed_rot _ l1 l2).
Qed.
Print Assumptions C04_rotation_invariant.

(** C04: the direction of travel does not matter for symmetric distances, no weights. *)
Theorem C04_reversal_invariant :
  forall s l, s_oneway s = false -> s_weights s = None ->
    (forall a b, s_dist s a b = s_dist s b a) -> dcf_logL s (rev l) = dcf_logL s l.
Proof. exact dcf_reversal. Qed.
Print Assumptions C04_reversal_invariant.

(** C04: the built-in metrics are symmetric and non-negative. *)
Theorem C04_metrics :
  (forall x y, manhattan1 x y = manhattan1 y x /\ 0 <= manhattan1 x y) /\
  (forall x y, euclidic1 x y = euclidic1 y x /\ 0 <= euclidic1 x y) /\
  (forall x y, spherical1 x y = spherical1 y x /\ 0 <= spherical1 x y).
Proof.
  split; [|split]; intros x y.
  - exact (conj (manhattan1_sym x y) (manhattan1_nonneg x y)).
  - exact (conj (euclidic1_sym x y) (euclidic1_nonneg x y)).
  - exact (conj (spherical1_sym x y) (spherical1_nonneg x y)).
Qed.
Print Assumptions C04_metrics.

(** C04: with the default scale (the smallest distance between any two cities)
    every leg of every tour is charged at least 1. *)
Theorem C04_default_scale :
  forall s n l md,
    s_oneway s = false -> s_weights s = None ->
    minimumDistance (s_dist s) n = Some md -> s_scale s = md -> 0 < md ->
    (2 <= n)%nat -> is_tour n l ->
    Forall (fun r => 1 <= r) (sp_result s l).
Proof. exact legs_at_least_one. Qed.
Print Assumptions C04_default_scale.

Example C04_hypotheses_met :
  let s := mkS (fun a b => Rabs (INR a - INR b)) 1 false None in
  minimumDistance (s_dist s) 2 = Some 1 /\ is_tour 2 [1;0]%nat /\
  (forall a b, s_dist s a b = s_dist s b a).
Proof.
  simpl. split; [|split].
  - unfold minimumDistance, distances. simpl. unfold minlist. simpl. f_equal.
    replace (0 - 1) with (-1) by ring. replace (1 - 0) with 1 by ring.
    rewrite Rabs_R1. replace (Rabs (-1)) with 1.
    + apply Rmin_left. lra.
    + rewrite <- (Ropp_involutive 1) at 1. unfold Rabs. destruct (Rcase_abs (-1)); lra.
  - apply (Permutation_rev [0;1]%nat).
  - intros. apply Rabs_minus_sym.
Qed.

(** C04: a one-way tour pays all legs but the way home. *)
Theorem C04_oneway :
  forall s a r, s_oneway s = true ->
    sumR (sp_result s (a :: r)) = open_length (leg s) a r.
Proof. exact oneway_length. Qed.
Print Assumptions C04_oneway.

Local Open Scope R_scope.
Lemma half_angle : forall d, Rabs d <= PI -> 2 * asin (sqrt (Rmin 1 (Rsqr (sin (d / 2))))) = Rabs d.
Proof.
  assert (P := PI_RGT_0).
  assert (G : forall d, 0 <= d <= PI -> 2 * asin (sqrt (Rmin 1 (Rsqr (sin (d / 2))))) = d).
  { intros d H. assert (S0 : 0 <= sin (d / 2)) by (apply sin_ge_0; lra). assert (B := SIN_bound (d / 2)).
    rewrite Rmin_right by (unfold Rsqr; nra). rewrite sqrt_Rsqr by exact S0. rewrite asin_sin by lra. field. }
  intros d H. destruct (Rle_dec 0 d) as [N|N].
  - rewrite Rabs_pos_eq in * by exact N. apply G. lra.
  - rewrite Rabs_left in * by lra. rewrite <- (G (- d)) by lra. replace (- d / 2) with (- (d / 2)) by field. rewrite sin_neg, <- Rsqr_neg. reflexivity.
Qed.
(** C04: the spherical distance of two cities on one meridian is their difference in latitude (in radians); that of two on the
    equator is their difference in longitude. *)
Theorem C04_great_circle : forall a b, Rabs (a - b) <= 180 ->
  (forall lon, spherical1 (lon, a) (lon, b) = Rabs (a - b) * (PI / 180)) /\ spherical1 (a, 0) (b, 0) = Rabs (a - b) * (PI / 180).
Proof.
  intros a b H. assert (P := PI_RGT_0).
  assert (E : Rabs (a - b) * (PI / 180) = Rabs ((a - b) * (PI / 180))) by (rewrite Rabs_mult, (Rabs_pos_eq (PI / 180)) by lra; reflexivity).
  assert (L : Rabs ((a - b) * (PI / 180)) <= PI) by (rewrite <- E; nra).
  assert (S1 : Rsqr (sin (b * (PI / 180) / 2) * cos (a * (PI / 180) / 2) - sin (a * (PI / 180) / 2) * cos (b * (PI / 180) / 2)) = Rsqr (sin ((a - b) * (PI / 180) / 2))).
  { replace ((a - b) * (PI / 180) / 2) with (a * (PI / 180) / 2 - b * (PI / 180) / 2) by field. rewrite sin_minus. unfold Rsqr. ring. }
  rewrite E. split; [intros lon|]; unfold spherical1, hav_a; rewrite S1, <- (half_angle _ L).
  - f_equal. f_equal. f_equal. f_equal. unfold Rsqr. ring.
  - f_equal. f_equal. f_equal. f_equal. rewrite !Rmult_0_l, cos_0. unfold Rdiv. rewrite !Rmult_0_l, sin_0. unfold Rsqr. ring.
Qed.
Print Assumptions C04_great_circle.
Example C04_great_circle_ex : spherical1 (10, 20) (10, 110) = PI / 2.
Proof. rewrite (proj1 (C04_great_circle 20 110 ltac:(rewrite Rabs_left; lra))). rewrite Rabs_left by lra. field. Qed.

(** C01: the first trial of ReverseEngine turns around two items more than what was drawn, at most two more than half of the list, from
    the place that was drawn; when it is above the level it is stored and its length is reported. *)
Theorem C01_reverse_first : forall (A : Type) (lik : list A -> Z) (low : Z) rnd src g (param : list A),
  let t := Nat.min (g + 2) (length param / 2 + 2) in let turned := skipn src param ++ firstn src param in let p := rev (firstn t turned) ++ skipn t turned in
  (low <= lik p)%Z -> reverse_once lik low rnd src g param = Some (t, Some p).
Proof.
  intros A lik low rnd src g param t turned p H. assert (E : reverse_t0 (length param) g = t) by (unfold reverse_t0, t; lia).
  unfold reverse_once. rewrite E. cbn [trial_loop]. assert (T : (1 <? t)%nat = true) by (apply Nat.ltb_lt; unfold t; lia). rewrite T.
  change (reverse_ptry src t param) with p. apply Z.leb_le in H. rewrite H. reflexivity.
Qed.
Print Assumptions C01_reverse_first.
Example C01_reverse_first_ex : reverse_once (fun _ => 5%Z) 3 (fun _ _ => 0%nat) 2 1 [1; 2; 3; 4; 5; 6]%nat = Some (3, Some [5; 4; 3; 6; 1; 2])%nat.
Proof. exact (C01_reverse_first nat (fun _ => 5%Z) 3 (fun _ _ => 0%nat) 2 1 [1; 2; 3; 4; 5; 6]%nat ltac:(cbn; lia)). Qed.
