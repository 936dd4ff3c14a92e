(** Theorems C30: kept parameters. *)
From Coq Require Import List Arith Reals Bool Lia Lra Psatz.
From Verif Require Import L_List L_Sum M_Fitter S_Fitter P_Fitter P_Fitter2 T_Fitter.
Import ListNotations.
Local Open Scope R_scope.

Lemma fit_par solve m y weights acc keep s p s' : made m s -> dict keep -> (0 < m_np m)%nat -> fit solve m y weights acc keep s = (Ret p, s') ->
  exists fi w s1 q, fitprolog m weights acc keep s = Ret (fi, w, s1) /\ p = insertParameters m q fi (f_par s1) /\ f_par s' = p /\
    f_npfit s' = f_npfit s1 /\ f_index s' = f_index s /\ f_sumw s' = f_sumw s1 /\ f_chi s' = Some (chisq m y w p) /\ 0 < chisq m y w p.
Proof.
  intros MD DK NP E. unfold fit in E. destruct (fitprolog m weights acc keep s) as [[[fi w] s1]|e] eqn:EP; [|discriminate].
  destruct (prolog_spec _ _ _ _ _ _ _ _ MD DK EP) as (_ & _ & _ & _ & _ & _ & _ & _ & EI & _).
  destruct (Nat.eqb_spec (m_np m) 0); [lia|]. destruct (solve _ _ _) as [q|]; [|discriminate]. cbn zeta in E. unfold chiSquared in E.
  destruct (Rle_dec _ 0) as [|NZ]; [discriminate|]. injection E as E1 E2. exists fi, w, s1, q. subst s'. cbn. rewrite E1 in *. repeat split; auto. lra.
Qed.

(** keep in the call: the parameters get exactly the values of keep. *)
Theorem C30_fit_keep solve m y weights acc kp s p s' j v : made m s -> NoDup (map fst kp) -> (0 < m_np m)%nat ->
  fit solve m y weights acc (Some kp) s = (Ret p, s') -> In (j, v) kp -> p j = v /\ f_par s' j = v.
Proof.
  intros MD DK NP E H. change (dict (Some kp)) in DK. destruct (fit_par _ _ _ _ _ _ _ _ _ MD DK NP E) as (fi & w & s1 & q & EP & -> & -> & _).
  destruct (prolog_spec _ _ _ _ _ _ _ _ MD DK EP) as (WF & FI & _ & _ & _ & _ & _ & _ & _ & _ & KP & _).
  assert (HB : (j < m_np m)%nat).
  { unfold fitprolog in EP. cbn [keepFixed] in EP. destruct (forallb _ (keys kp)) eqn:FB; [|discriminate]. rewrite forallb_forall in FB.
    apply Nat.ltb_lt, FB, (in_map fst _ _ H). }
  assert (Q : insertParameters m q fi (f_par s1) j = v); [|split; exact Q].
  rewrite insert_place by assumption. rewrite place_out; [exact (KP j v H)|]. intro Hin. apply FI in Hin; [|exact HB]. apply Hin. exact (in_map fst _ _ H).
Qed.
Print Assumptions C30_fit_keep.

(** keep in the constructor: every fit returns the values that the model had, and the constructor has put the
    values of keep there. *)
Theorem C30_init_keep m kp pars s : NoDup (map fst kp) -> init m (Some kp) pars = Ret s ->
  made m s /\ (forall j v, In (j, v) kp -> f_par s j = v /\ ~ free None s j) /\ (forall j, (j < m_np m)%nat -> ~ In j (map fst kp) -> f_par s j = pars j /\ free None s j) /\
  (forall j, In j (map fst kp) -> (j < m_np m)%nat).
Proof.
  intros ND E. unfold init in E. cbn [keepFixed] in E. destruct (forallb _ (keys kp)) eqn:FB; [|discriminate]. injection E as <-. rewrite forallb_forall in FB.
  cbn. split; [exists (keys kp); reflexivity|]. repeat split.
  - destruct (In_nth _ _ (0%nat, 0) H) as (i & Hi & Ei).
    pose proof (place_in (keys kp) (values kp) 0 pars i ND ltac:(unfold keys; rewrite map_length; exact Hi)) as P.
    unfold keys in P at 2. rewrite (map_nth fst kp (0%nat, 0)), Ei in P. cbn [fst] in P. rewrite P. cbn [Nat.add]. rewrite (values_in _ _ _ Hi Ei). reflexivity.
  - intro F. apply filter_In in F. destruct F as [_ F]. apply negb_true_iff in F. assert (existsb (Nat.eqb j) (keys kp) = true); [|congruence].
    apply existsb_exists. exists j. split; [exact (in_map fst _ _ H)|apply Nat.eqb_refl].
  - apply place_out. exact H0.
  - apply filter_In. split; [apply in_seq; lia|]. apply negb_true_iff, not_true_iff_false. intro B. apply existsb_exists in B. destruct B as (x & Hx & Ex). apply Nat.eqb_eq in Ex. subst x. exact (H0 Hx).
  - intros j H. apply Nat.ltb_lt. apply FB. exact H.
Qed.
Print Assumptions C30_init_keep.

Theorem C30_fit_init solve m y weights acc s p s' j : made m s -> (0 < m_np m)%nat -> (j < m_np m)%nat ->
  fit solve m y weights acc None s = (Ret p, s') -> ~ free None s j -> p j = f_par s j /\ made m s' /\ f_par s' = p.
Proof.
  intros MD NP Hj E NF. destruct (fit_par solve m y weights acc None s p s' MD I NP E) as (fi & w & s1 & q & EP & -> & E2 & _ & EI & _).
  destruct (prolog_spec m weights acc None s fi w s1 MD I EP) as (WF & FI & _ & _ & _ & _ & _ & _ & _ & _ & KP & _).
  split; [|split; [unfold made; rewrite EI; exact MD|exact E2]].
  rewrite insert_place by assumption. rewrite place_out; [rewrite KP; reflexivity|]. intro Hin. apply NF, FI; assumption.
Qed.
Print Assumptions C30_fit_init.

Lemma filter_count (kept : list nat) n : NoDup kept -> (forall j, In j kept -> (j < n)%nat) ->
  (length (filter (fun j => negb (existsb (Nat.eqb j) kept)) (seq 0 n)) + length kept = n)%nat.
Proof.
  intros ND RG. assert (P : forall l, (length (filter (fun j => negb (existsb (Nat.eqb j) kept)) l) + length (filter (fun j => existsb (Nat.eqb j) kept) l) = length l)%nat).
  { induction l as [|a l IH]; [reflexivity|]. cbn [filter]. destruct (existsb (Nat.eqb a) kept); cbn [negb length]; lia. }
  specialize (P (seq 0 n)). rewrite seq_length in P.
  assert (L : length (filter (fun j => existsb (Nat.eqb j) kept) (seq 0 n)) = length kept); [|lia].
  apply Nat.le_antisymm; apply NoDup_incl_length.
  - apply NoDup_filter, seq_NoDup.
  - intros x Hx. apply filter_In in Hx. destruct Hx as [_ Hx]. apply existsb_exists in Hx. destruct Hx as (y & Hy & Ey). apply Nat.eqb_eq in Ey. subst. exact Hy.
  - exact ND.
  - intros x Hx. apply filter_In. split; [apply in_seq; pose proof (RG x Hx); lia|]. apply existsb_exists. exists x. split; [exact Hx|apply Nat.eqb_refl].
Qed.

(** The degrees of freedom after a fit with keep in the constructor (or without keep). *)
Theorem C30_count solve m keep pars y weights acc s p s' : dict keep -> init m keep pars = Ret s -> (0 < m_np m)%nat ->
  fit solve m y weights acc None s = (Ret p, s') ->
  let kept := match keep with None => 0%nat | Some kp => length kp end in
  let N := match weights with None => INR (m_n m) | Some w => sum (m_n m) w end in
  (f_npfit s' + kept = m_np m)%nat /\
  (0 < N - (INR (m_np m) - INR kept) -> getScale s' = Ret (sqrt (chisq m y (fitWgts weights acc) p / (N - (INR (m_np m) - INR kept))))).
Proof.
  intros DK EI NP E. cbn zeta.
  assert (MD : made m s).
  { destruct keep as [kp|]; [destruct (C30_init_keep _ _ _ _ DK EI) as [M _]; exact M|]. unfold init in EI. cbn in EI. injection EI as <-. exact I. }
  destruct (fit_par solve m y weights acc None s p s' MD I NP E) as (fi & w & s1 & q & EP & -> & E2 & EN & _ & EW & EC & _).
  destruct (prolog_spec m weights acc None s fi w s1 MD I EP) as (WF & FI & -> & _ & _ & _ & _ & _ & _ & _ & _ & LF).
  assert (SW : f_sumw s1 = match weights with None => INR (m_n m) | Some w => sum (m_n m) w end).
  { unfold fitprolog in EP. destruct (f_index (set_sumw s _)); injection EP as <- <-; reflexivity. }
  assert (CT : (f_npfit s' + match keep with None => 0%nat | Some kp => length kp end = m_np m)%nat).
  { rewrite EN, LF. unfold fitprolog in EP. cbn [f_index set_sumw] in EP. destruct keep as [kp|].
    - unfold init in EI. cbn [keepFixed] in EI. destruct (forallb _ (keys kp)) eqn:FB; [|discriminate]. injection EI as <-. cbn [f_index set_index] in EP. injection EP as <- _.
      rewrite forallb_forall in FB. rewrite <- (map_length fst kp). apply (filter_count (keys kp)); [exact DK|]. intros j Hj. apply Nat.ltb_lt, FB, Hj.
    - unfold init in EI. cbn in EI. injection EI as <-. cbn [f_index set_index] in EP. injection EP as <- _. rewrite seq_length. lia. }
  split; [exact CT|]. intro DP. unfold getScale. rewrite EW, SW, EC.
  replace (INR (f_npfit s')) with (INR (m_np m) - INR (match keep with None => 0%nat | Some kp => length kp end)) by (rewrite <- CT, plus_INR; ring).
  destruct (Rle_dec _ 0); [lra|]. reflexivity.
Qed.
Print Assumptions C30_count.

(** keep in the call: it is the kept ones that are counted. *)
Theorem C30_count_refuted : exists m y kp s p s', made m s /\ NoDup (map fst kp) /\ fit solve1 m y None None (Some kp) s = (Ret p, s') /\
  (f_npfit s' <> m_np m - length kp)%nat.
Proof.
  set (m := mkM 2 3 (fun p i => p 0%nat) (fun _ i j => if (j =? 0)%nat then 1 else 0)).
  exists m, y03, [(1%nat, 0); (2%nat, 0)], (obj zeros).
  unfold fit. cbn [fitprolog keepFixed keys map fst forallb m_np m Nat.ltb Nat.leb andb]. cbn [seq filter existsb Nat.eqb orb negb length]. unfold solve1. cbn [Nat.eqb].
  match goal with |- context [Req_EM_T ?a 0] => assert (H : a = 2) end.
  { unfold getHessian, rows, getDesign, append, fitWgts. cbn. field. }
  rewrite H. destruct (Req_EM_T 2 0); [lra|].
  unfold chiSquared. cbn [insertParameters length Nat.eqb place].
  match goal with |- context [Rle_dec ?a 0] => assert (C : a = 9 / 2) end.
  { unfold chisq, getVector, rows, getDesign, append, fitWgts, y03. cbn. unfold zeros. field. }
  rewrite C. destruct (Rle_dec _ 0); [lra|]. do 2 eexists. split; [exact I|]. split; [repeat constructor; cbn; intuition lia|]. split; [reflexivity|]. cbn. lia.
Qed.
Print Assumptions C30_count_refuted.

(** keep in the call releases what the constructor was told to keep. *)
Theorem C30_override_refuted : exists m kp s y p s', NoDup (map fst kp) /\ init m (Some [(0%nat, 5)]) zeros = Ret s /\
  fit solve1 m y None None (Some kp) s = (Ret p, s') /\ p 0%nat <> 5.
Proof.
  set (m := mkM 2 2 (fun p i => p 0%nat) (fun _ i j => if (j =? 0)%nat then 1 else 0)).
  assert (X : exists s, init m (Some [(0%nat, 5)]) zeros = Ret s /\ f_nrow s = 0%nat /\ f_par s 0%nat = 5) by (eexists; split; [reflexivity|split; reflexivity]).
  destruct X as (s & EI & EN & E5). exists m, [(1%nat, 0)], s, y03.
  enough (Y : exists p s', fit solve1 m y03 None None (Some [(1%nat, 0)]) s = (Ret p, s') /\ p 0%nat <> 5).
  { destruct Y as (p & s' & Y1 & Y2). exists p, s'. split; [repeat constructor; cbn; tauto|]. split; [exact EI|]. split; [exact Y1|exact Y2]. }
  unfold fit. cbn [fitprolog keepFixed keys map fst forallb m_np m Nat.ltb Nat.leb andb]. cbn [seq filter existsb Nat.eqb orb negb length]. unfold solve1. cbn [Nat.eqb].
  match goal with |- context [Req_EM_T ?a 0] => assert (H : a = 2) end.
  { unfold getHessian, rows, getDesign, append, fitWgts. cbn. rewrite EN. cbn. field. }
  rewrite H. destruct (Req_EM_T 2 0); [lra|].
  unfold chiSquared. cbn [insertParameters length Nat.eqb place].
  match goal with |- context [Rle_dec ?a 0] => assert (C : a = 9 / 2) end.
  { unfold chisq, getVector, rows, getDesign, append, fitWgts, y03. cbn. rewrite EN. cbn. unfold zeros. field. }
  rewrite C. destruct (Rle_dec _ 0); [lra|]. do 2 eexists. split; [reflexivity|].
  unfold insertParameters. cbn. unfold getVector, rows, getDesign, append, fitWgts, y03. cbn. rewrite EN. cbn. unfold zeros. lra.
Qed.
Print Assumptions C30_override_refuted.

(** The constructor puts the kept value in the model only once: when the model's parameters are changed
    afterwards (by hand or by another fitter) the fit keeps that value instead. *)
Theorem C30_later_refuted : exists m s pars y p s', init m (Some [(1%nat, 5)]) zeros = Ret s /\
  fit solve1 m y None None None (set_par s pars) = (Ret p, s') /\ p 1%nat <> 5.
Proof.
  set (m := mkM 2 2 (fun p i => p 0%nat) (fun _ i j => if (j =? 0)%nat then 1 else 0)).
  assert (X : exists s, init m (Some [(1%nat, 5)]) zeros = Ret s /\ f_nrow s = 0%nat /\ f_index s = Some [0%nat]) by (eexists; split; [reflexivity|split; reflexivity]).
  destruct X as (s & EI & EN & E5). exists m, s, zeros, y03.
  enough (Y : exists p s', fit solve1 m y03 None None None (set_par s zeros) = (Ret p, s') /\ p 1%nat <> 5).
  { destruct Y as (p & s' & Y1 & Y2). exists p, s'. auto. }
  unfold fit, fitprolog. cbn [f_index set_par set_sumw]. rewrite E5. cbn [m_np m Nat.eqb length]. unfold solve1. cbn [Nat.eqb].
  match goal with |- context [Req_EM_T ?a 0] => assert (H : a = 2) end.
  { unfold getHessian, rows, getDesign, append, fitWgts. cbn. rewrite EN. cbn. field. }
  rewrite H. destruct (Req_EM_T 2 0); [lra|].
  unfold chiSquared. cbn [insertParameters length Nat.eqb place].
  match goal with |- context [Rle_dec ?a 0] => assert (C : a = 9 / 2) end.
  { unfold chisq, getVector, rows, getDesign, append, fitWgts, y03. cbn. rewrite EN. cbn. unfold zeros. field. }
  rewrite C. destruct (Rle_dec _ 0); [lra|]. do 2 eexists. split; [reflexivity|].
  unfold insertParameters. cbn. unfold zeros. lra.
Qed.
Print Assumptions C30_later_refuted.

(** Standard deviations: kept in the constructor, the standard deviation is zero. *)
Theorem C30_stdev inv m wgt s sd j : made m s -> getStandardDeviations inv m wgt s = Ret sd -> (j < m_np m)%nat -> ~ free None s j -> sd j = 0.
Proof.
  intros MD E Hj NF. unfold getStandardDeviations in E. destruct (inv _ _) as [h|]; [|discriminate]. destruct (getScale s) as [sc|]; [|discriminate]. injection E as <-.
  unfold free in NF. destruct (f_index s) as [fi|] eqn:EI; [|tauto]. rewrite insert_place by (eauto using made_wfi). rewrite place_out by exact NF. reflexivity.
Qed.
Print Assumptions C30_stdev.

Definition inverse (inv : nat -> mat -> option mat) : Prop := forall n H h, inv n H = Some h ->
  forall k l, (k < n)%nat -> (l < n)%nat -> sum n (fun a => H k a * h a l) = delta k l.

(** Kept in the call, it is not: identity model, keep {1:0}, data 1, 2; whatever inverse is used. *)
Theorem C30_stdev_refuted : exists m y kp s p s', made m s /\ NoDup (map fst kp) /\ fit solve1 m y None None (Some kp) s = (Ret p, s') /\
  forall inv sd, inverse inv -> getStandardDeviations inv m (fitWgts None None) s' = Ret sd -> sd 1%nat <> 0.
Proof.
  set (m := mkM 2 2 (fun p i => p i) (fun _ i j => if (i =? j)%nat then 1 else 0)).
  exists m, (fun i => INR i + 1), [(1%nat, 0)], (obj zeros).
  enough (Y : exists p s', fit solve1 m (fun i => INR i + 1) None None (Some [(1%nat, 0)]) (obj zeros) = (Ret p, s') /\ f_nrow s' = 0%nat /\ f_index s' = None /\ f_chi s' = Some 4 /\ f_sumw s' = 2 /\ f_npfit s' = 1%nat).
  { destruct Y as (p & s' & Y1 & EN & EI & EC & ES & EF). exists p, s'. split; [exact I|]. split; [repeat constructor; cbn; tauto|]. split; [exact Y1|].
    intros inv sd IV E. unfold getStandardDeviations in E. rewrite EI in E. cbn [length seq m_np m] in E.
    destruct (inv 2%nat _) as [h|] eqn:EH; [|discriminate]. pose proof (IV _ _ _ EH 1%nat 1%nat ltac:(lia) ltac:(lia)) as Q.
    unfold getHessian, rows, getDesign, append, fitWgts, delta in Q. cbn in Q. rewrite EN in Q. cbn in Q.
    assert (Q' : h 1%nat 1%nat = 1) by lra. unfold getScale in E. rewrite ES, EF, EC in E. cbn [INR] in E. destruct (Rle_dec (2 - 1) 0); [lra|]. injection E as <-.
    rewrite Q'. rewrite sqrt_sqrt by lra. apply Rgt_not_eq. apply sqrt_lt_R0. lra. }
  unfold fit. cbn [fitprolog keepFixed keys map fst forallb m_np m Nat.ltb Nat.leb andb]. cbn [seq filter existsb Nat.eqb orb negb length]. unfold solve1. cbn [Nat.eqb].
  match goal with |- context [Req_EM_T ?a 0] => assert (H : a = 1) end.
  { unfold getHessian, rows, getDesign, append, fitWgts. cbn. field. }
  rewrite H. destruct (Req_EM_T 1 0); [lra|].
  unfold chiSquared. cbn [insertParameters length Nat.eqb place].
  match goal with |- context [Rle_dec ?a 0] => assert (C : a = 4) end.
  { unfold chisq, getVector, rows, getDesign, append, fitWgts. cbn. unfold zeros, values. cbn. field. }
  rewrite C. destruct (Rle_dec _ 0); [lra|]. do 2 eexists. split; [reflexivity|]. cbn. repeat split; lra.
Qed.
Print Assumptions C30_stdev_refuted.
