(** C45: hyper-parameters keep their settings. *)
From Coquelicot Require Import Coquelicot.
From Coq Require Import Reals ZArith Bool List Lra Lia.
From Verif Require Import L_Erf M_Prior P_Prior P_PriorD T_Prior M_Hyper.
Import ListNotations.
Local Open Scope R_scope.

(** two priors which cannot be told apart by their class, limits and mappings *)
Definition same_prior (p q : prior) : Prop :=
  p_kind q = p_kind p /\ p_low q = p_low p /\ p_high q = p_high p /\
  (forall d, domain2Unit q d = domain2Unit p d) /\ (forall u, unit2Domain q u = unit2Domain p u).

Lemma limited_same p q l h : p_kind q = p_kind p -> limited_by p l h -> limited_by q l h -> same_prior p q.
Proof.
  intros E (C & L & LO & HI & a & b & A & B & U & V) (C' & L' & LO' & HI' & a' & b' & A' & B' & U' & V').
  rewrite E in A', B'. rewrite A in A'. injection A' as <-. rewrite B in B'. injection B' as <-.
  split; [exact E|]. split; [congruence|]. split; [congruence|]. split.
  - intro d. unfold domain2Unit, limitedD2U. rewrite C, C', L, L', E, U, U', V, V'. reflexivity.
  - intro u. unfold unit2Domain, limitedU2D. rewrite C, C', L, L', E, U, U', V, V'. reflexivity.
Qed.

Lemma fin_low k l : lowOf k (fin (lowOf k l)) = lowOf k l.
Proof. destruct l; [reflexivity|]. destruct k; reflexivity. Qed.
Lemma fin_high h : highOf (fin (highOf h)) = highOf h.
Proof. destruct h; reflexivity. Qed.

Lemma setLimits_ok k p l h : plain k p -> Rbar_lt (lowOf k l) (highOf h) ->
  Rbar_le (match k with KJeffreys => Finite 0 | _ => m_infty end) (lowOf k l) ->
  exists q, setLimits p (Some (l, h)) = (q, false).
Proof.
  intros (PK & PC & PL & PH) O D. unfold setLimits.
  assert (E1 : match l with Some x => Finite x | None => p_lodom p end = lowOf k l) by (destruct l; [reflexivity|exact PL]).
  assert (E2 : match h with Some x => Finite x | None => p_hidom p end = highOf h) by (destruct h; [reflexivity|exact PH]).
  rewrite E1, E2, PL, PH. rewrite (leb_true _ _ D), (ltb_true _ _ O).
  assert (Q : Rbar_leb (highOf h) p_infty = true) by (apply leb_true; destruct h; exact I). rewrite Q. cbn [andb negb].
  destruct (domain2Unit _ _); [destruct (domain2Unit _ _); [destruct (p_limited p)|]|]; eexists; reflexivity.
Qed.

(** what a limited prior is turned into by copy *)
Lemma copy_limited k p l h : kok k -> plain k p -> limited_by p (lowOf k l) (highOf h) -> Rbar_lt (p_low p) (p_high p) ->
  Rbar_le (match k with KJeffreys => Finite 0 | _ => m_infty end) (lowOf k l) ->
  bounded k l h -> exists q, prior_copy p = Some q /\ plain k q /\ limited_by q (lowOf k l) (highOf h) /\ same_prior p q.
Proof.
  intros K P LB O D B. pose proof LB as LB0. pose proof (proj1 P) as PK.
  destruct LB as (C & L & LO & HI & a & b & A & Bb & U & V).
  rewrite PK in A, Bb. unfold prior_copy. rewrite LO, HI, PK.
  set (f := fresh k _).
  assert (Pf : plain k f) by apply fresh_plain.
  assert (O' : Rbar_lt (lowOf k (fin (lowOf k l))) (highOf (fin (highOf h)))) by (rewrite fin_low, fin_high; congruence).
  assert (D' : Rbar_le (match k with KJeffreys => Finite 0 | _ => m_infty end) (lowOf k (fin (lowOf k l)))) by (rewrite fin_low; exact D).
  destruct (setLimits_ok k f _ _ Pf O' D') as [q E]. rewrite E.
  assert (NN : fin (lowOf k l) <> None \/ fin (highOf h) <> None).
  { apply bounded_some in B. destruct B as [B|B]; [left; destruct l; [discriminate|congruence]|right; destruct h; [discriminate|congruence]]. }
  destruct (setLimits_limited k f _ _ q Pf NN E) as (QK & QL & QO).
  { rewrite fin_low, A. discriminate. }
  { rewrite fin_high, Bb. discriminate. }
  rewrite fin_low, fin_high in QL.
  assert (QP : plain k q) by (pose proof (setLimits_plain k f (Some (fin (lowOf k l), fin (highOf h))) Pf) as Z; rewrite E in Z; exact Z).
  eexists. split; [reflexivity|].
  destruct QL as (C' & L' & LO' & HI' & a' & b' & A' & B' & U' & V').
  assert (Q : mkP (p_kind q) (p_lodom q) (p_hidom q) (p_low q) (p_high q) match p_urng q with Some _ => true | None => false end
                  (p_circ q) (p_umin q) (p_urng q) (p_limint q) = q).
  { rewrite V' at 1. rewrite <- L'. destruct q; reflexivity. }
  rewrite Q. split; [exact QP|].
  assert (LQ : limited_by q (lowOf k l) (highOf h)).
  { repeat split; try assumption. exists a', b'. auto. }
  split; [exact LQ|]. apply (limited_same p q (lowOf k l) (highOf h)); [congruence|exact LB0|exact LQ].
Qed.

(** ** Copy of a hyper-parameter *)

(** HyperParameter.copy keeps everything, when the prior has limits ... *)
Lemma plain_low k p l h q : plain k p -> setLimits p (Some (l, h)) = (q, false) ->
  Rbar_le (match k with KJeffreys => Finite 0 | _ => m_infty end) (lowOf k l).
Proof.
  intros (PK & PC & PL & PH) E. unfold setLimits in E.
  assert (E1 : match l with Some x => Finite x | None => p_lodom p end = lowOf k l) by (destruct l; [reflexivity|exact PL]).
  rewrite E1, PL in E. unfold Rbar_leb in E at 1. destruct (Rbar_le_dec _ (lowOf k l)); [assumption|]. cbn in E. discriminate.
Qed.

Theorem C45_copy_limited : forall v sd p f kp mn k l h, kok k -> bounded k l h -> lastset k l h p ->
  exists q, hyper_copy (mkH v sd (Some p) f kp mn) = Some (mkH v sd (Some q) f false false) /\ same_prior p q.
Proof.
  intros v sd p f kp mn k l h K B L.
  destruct (last_limited k l h p K B L) as (E & (_ & O) & LB).
  assert (exists q, plain k q /\ setLimits q (Some (l, h)) = (p, false)) as (q & Q & ES).
  { destruct L as [p E'|q p A E']; [|exists q; split; [apply any_plain|]; assumption].
    eexists. split; [|apply new_set; exact E']. apply fresh_plain. }
  pose proof (plain_low _ _ _ _ _ Q ES) as D.
  assert (P : plain k p) by (pose proof (setLimits_plain k q (Some (l, h)) Q) as Z; rewrite ES in Z; exact Z).
  destruct (copy_limited k p l h K P LB O D B) as (c & C1 & _ & _ & C2).
  exists c. unfold hyper_copy. cbn [h_prior h_val h_stdev h_fixed]. rewrite C1. auto.
Qed.
Print Assumptions C45_copy_limited.

Example C45_copy_limited_example : exists p q, mkPrior (KGauss 1 2) (Some (Some 0, Some 3)) None = Some p /\
  hyper_copy (mkH 2 (Some 1) (Some p) false false false) = Some (mkH 2 (Some 1) (Some q) false false false) /\
  p_low q = Finite 0 /\ p_high q = Finite 3.
Proof.
  assert (K : kok (KGauss 1 2)) by (cbn; lra).
  destruct (mk_two (KGauss 1 2) 0 3 K ltac:(lra) I) as [p P].
  assert (B : bounded (KGauss 1 2) (Some 0) (Some 3)) by (left; discriminate).
  assert (L : lastset (KGauss 1 2) (Some 0) (Some 3) p) by (constructor; exact P).
  destruct (C45_copy_limited 2 (Some 1) p false false false _ _ _ K B L) as (q & Q & S1 & S2 & S3 & _).
  exists p, q. split; [exact P|]. split; [exact Q|]. destruct (C24_history _ _ _ p K B L) as (A1 & A2 & _).
  rewrite S2, S3, A1, A2. auto.
Qed.

(** ... or none at all, and when there is no prior. *)
Theorem C45_copy_unlimited : forall v sd p f kp mn k, kok k -> mkPrior k None None = Some p ->
  exists q, hyper_copy (mkH v sd (Some p) f kp mn) = Some (mkH v sd (Some q) f false false) /\ same_prior p q.
Proof.
  intros v sd p f kp mn k K H. apply mkPrior_none in H. destruct H as (E1 & E2 & E3 & E4 & E5 & E6).
  unfold hyper_copy, prior_copy. cbn [h_prior h_val h_stdev h_fixed]. rewrite E1, E4, E5. unfold same_prior. rewrite E1, E4, E5.
  unfold setLimits. cbn [fresh p_lodom p_hidom p_limited p_kind p_circ p_umin p_urng p_limint fin].
  destruct k; cbn [lowOf fin];
    rewrite !leb_true by (try exact I; cbn; lra); rewrite ltb_true by exact I; cbn [andb negb];
    unfold setu; unfold domain2Unit at 1 2; cbn [p_circ p_limited p_kind d2uE d2u].
  - eexists. split; [reflexivity|]. cbn. repeat split; try reflexivity;
      intros; unfold domain2Unit, unit2Domain; rewrite E1, E2, E3; reflexivity.
  - eexists. split; [reflexivity|]. cbn. repeat split; try reflexivity;
      intros; unfold domain2Unit, unit2Domain; rewrite E1, E2, E3; reflexivity.
  - eexists. split; [reflexivity|]. cbn [p_kind p_low p_high]. repeat split; try reflexivity.
    + intro d. unfold domain2Unit, limitedD2U. rewrite E1, E2, E3. cbn [p_circ p_limited p_urng p_kind p_umin].
      destruct (d2uE _ d); [|reflexivity]. f_equal. field.
    + intro u. unfold unit2Domain, limitedU2D. rewrite E1, E2, E3. cbn [p_circ p_limited p_urng p_kind p_umin].
      f_equal. f_equal. ring.
  - eexists. split; [reflexivity|]. cbn [p_kind p_low p_high]. repeat split; try reflexivity.
    + intro d. unfold domain2Unit, limitedD2U. rewrite E1, E2, E3. cbn [p_circ p_limited p_urng p_kind p_umin].
      destruct (d2uE _ d); [|reflexivity]. f_equal. field.
    + intro u. unfold unit2Domain, limitedU2D. rewrite E1, E2, E3. cbn [p_circ p_limited p_urng p_kind p_umin].
      f_equal. f_equal. ring.
  - eexists. split; [reflexivity|]. cbn [p_kind p_low p_high]. repeat split; try reflexivity.
    + intro d. unfold domain2Unit, limitedD2U. rewrite E1, E2, E3. cbn [p_circ p_limited p_urng p_kind p_umin].
      destruct (d2uE _ d); [|reflexivity]. f_equal. field.
    + intro u. unfold unit2Domain, limitedU2D. rewrite E1, E2, E3. cbn [p_circ p_limited p_urng p_kind p_umin].
      f_equal. f_equal. ring.
Qed.
Print Assumptions C45_copy_unlimited.

Theorem C45_copy_no_prior : forall v sd f kp mn, hyper_copy (mkH v sd None f kp mn) = Some (mkH v sd None f false false).
Proof. reflexivity. Qed.
Print Assumptions C45_copy_no_prior.

(** ** Any sequence of settings and copies *)
Inductive hop := OLim (l : limits) | OCopy.
Definition hstep (h : option hyper) (o : hop) : option hyper :=
  match h with
  | None => None
  | Some h => match o with OLim l => hyper_setLimits h l | OCopy => hyper_copy h end
  end.
Definition hrun (h : hyper) (ops : list hop) : option hyper := fold_left hstep ops (Some h).

Definition hok (k : kind) (v : R) (h : hyper) : Prop := h_val h = v /\ exists p, h_prior h = Some p /\ plain k p.

Lemma prior_copy_plain k p q : plain k p -> prior_copy p = Some q -> plain k q.
Proof.
  intros P E. unfold prior_copy in E. rewrite (proj1 P) in E. set (f := fresh k _) in E.
  destruct (setLimits f _) as [r e] eqn:S1. destruct e; [discriminate|]. injection E as <-.
  pose proof (setLimits_plain k f (Some (fin (p_low p), fin (p_high p))) (fresh_plain _ _)) as Z. rewrite S1 in Z. exact Z.
Qed.

Lemma hstep_ok k v h o h' : hok k v h -> hstep (Some h) o = Some h' -> hok k v h'.
Proof.
  intros (V & p & P & PL) E. destruct o as [l|]; cbn in E.
  - unfold hyper_setLimits in E. rewrite P in E. destruct (setLimits p l) as [q e] eqn:S1. destruct e; [discriminate|].
    injection E as <-. split; [exact V|]. exists q. split; [reflexivity|].
    pose proof (setLimits_plain k p l PL) as Z. rewrite S1 in Z. exact Z.
  - unfold hyper_copy in E. rewrite P in E. destruct (prior_copy p) as [q|] eqn:C; [|discriminate]. injection E as <-.
    split; [exact V|]. exists q. split; [reflexivity|]. eapply prior_copy_plain; eauto.
Qed.

Lemma hrun_none ops : fold_left hstep ops None = None.
Proof. induction ops; auto. Qed.

Lemma hrun_ok k v ops : forall h h', hok k v h -> fold_left hstep ops (Some h) = Some h' -> hok k v h'.
Proof.
  induction ops as [|o ops IH]; intros h h' H E; simpl in E; [injection E as <-; exact H|].
  destruct (hstep (Some h) o) as [h1|] eqn:E1; cbn [hstep] in E1; rewrite E1 in E; [|rewrite hrun_none in E; discriminate].
  apply (IH h1); [|exact E]. apply (hstep_ok k v h o); assumption.
Qed.

(** After any sequence of (succeeding) calls of setLimits and copies, followed by one setLimits and
    any number of copies, the hyper-parameter is not fixed, has the value it had, the same prior and
    the limits which were set last, and the unit interval is mapped onto those limits. *)
Theorem C45_history : forall k l h p h0 ops n hh, kok k -> bounded k l h ->
  h_prior h0 = Some p -> anyp k p ->
  hrun h0 (ops ++ OLim (Some (l, h)) :: repeat OCopy n) = Some hh ->
  h_fixed hh = false /\ h_val hh = h_val h0 /\ exists q, h_prior hh = Some q /\ p_kind q = k /\
    p_low q = lowOf k l /\ p_high q = highOf h /\
    domain2Unit q (p_low q) = Some 0 /\ domain2Unit q (p_high q) = Some 1.
Proof.
  intros k l h p h0 ops n hh K B HP A E.
  unfold hrun in E. rewrite fold_left_app in E.
  destruct (fold_left hstep ops (Some h0)) as [h1|] eqn:E1; [|cbn in E; rewrite hrun_none in E; discriminate].
  assert (O1 : hok k (h_val h0) h1).
  { apply (hrun_ok k (h_val h0) ops h0); [|exact E1]. split; [reflexivity|]. exists p. split; [exact HP|]. apply any_plain. exact A. }
  destruct O1 as (V1 & p1 & P1 & PL1). cbn [fold_left] in E.
  cbn [hstep] in E. unfold hyper_setLimits in E. rewrite P1 in E. destruct (setLimits p1 (Some (l, h))) as [q e] eqn:S1.
  destruct e; [rewrite hrun_none in E; discriminate|].
  destruct (setLimits_limited k p1 l h q PL1 (bounded_some _ _ _ B) S1 (bounded_low _ _ _ B) (bounded_high _ _ _ _ _ PL1 S1 B)) as (A1 & A2 & A3).
  assert (PQ : plain k q) by (pose proof (setLimits_plain k p1 (Some (l, h)) PL1) as Z; rewrite S1 in Z; exact Z).
  pose proof (plain_low _ _ _ _ _ PL1 S1) as D.
  assert (G : forall n h2, h_fixed h2 = false -> h_val h2 = h_val h0 ->
     (exists q, h_prior h2 = Some q /\ plain k q /\ limited_by q (lowOf k l) (highOf h) /\ Rbar_lt (p_low q) (p_high q)) ->
     fold_left hstep (repeat OCopy n) (Some h2) = Some hh ->
     h_fixed hh = false /\ h_val hh = h_val h0 /\ exists q, h_prior hh = Some q /\ plain k q /\ limited_by q (lowOf k l) (highOf h) /\ Rbar_lt (p_low q) (p_high q)).
  { clear - K D B. induction n as [|n IH]; intros h2 F2 V2 Q2 R2; simpl in R2.
    - injection R2 as <-. auto.
    - destruct Q2 as (q & Q1 & Q2 & Q3 & Q4). unfold hyper_copy in R2. rewrite Q1 in R2.
      destruct (copy_limited k q l h K Q2 Q3 Q4 D B) as (c & C1 & C2 & C3 & C4 & C5 & C6 & _). rewrite C1 in R2.
      apply (IH (mkH (h_val h2) (h_stdev h2) (Some c) (h_fixed h2) false false)); [exact F2|exact V2| |exact R2]. exists c. split; [reflexivity|]. split; [exact C2|]. split; [exact C3|]. rewrite C5, C6. exact Q4. }
  specialize (G n (mkH (h_val h1) (h_stdev h1) (Some q) false (h_kept h1) (h_min h1)) eq_refl V1 (ex_intro _ q (conj eq_refl (conj PQ (conj A2 A3)))) E).
  destruct G as (G1 & G2 & r & G3 & (GK & _) & (C & L & LO & HI & a & b & Aa & Bb & U & Vv) & G5).
  split; [exact G1|]. split; [exact G2|]. exists r. repeat split; auto.
  - rewrite LO, HI in G5. rewrite GK in Aa, Bb. pose proof (d2uE_lt _ _ _ _ _ K Aa Bb G5).
    unfold domain2Unit, limitedD2U. rewrite C, L, Vv, U, LO, GK, Aa. f_equal. field. lra.
  - rewrite LO, HI in G5. rewrite GK in Aa, Bb. pose proof (d2uE_lt _ _ _ _ _ K Aa Bb G5).
    unfold domain2Unit, limitedD2U. rewrite C, L, Vv, U, HI, GK, Bb. f_equal. field. lra.
Qed.
Print Assumptions C45_history.

Lemma hs_copy v s p f a b q : prior_copy p = Some q -> hstep (Some (mkH v s (Some p) f a b)) OCopy = Some (mkH v s (Some q) f false false).
Proof. intro E. cbn. unfold hyper_copy. cbn. rewrite E. reflexivity. Qed.
Lemma hs_lim v s p f a b l q : setLimits p l = (q, false) -> hstep (Some (mkH v s (Some p) f a b)) (OLim l) = Some (mkH v s (Some q) false a b).
Proof. intro E. cbn [hstep]. unfold hyper_setLimits. cbn. rewrite E. reflexivity. Qed.

Example C45_history_example : exists h0 hh q, mkNoise 2 true None (Some (Some 1, Some 10)) = Some h0 /\
  hrun h0 ([OCopy; OLim (Some (Some 3, Some 5))] ++ OLim (Some (Some 1, Some 3)) :: repeat OCopy 2) = Some hh /\
  h_prior h0 = Some q /\ anyp KJeffreys q.
Proof.
  destruct (mkPrior KJeffreys None None) as [p0|] eqn:P0.
  2:{ exfalso. unfold mkPrior in P0. cbn [recenter] in P0. unfold setLimits in P0. cbn [fresh p_lodom p_hidom] in P0.
      rewrite leb_true in P0 by (cbn; lra). rewrite ltb_true in P0 by exact I. rewrite leb_true in P0 by exact I. cbn in P0. discriminate. }
  assert (A0 : anyp KJeffreys p0) by (apply (any_new _ None); exact P0).
  assert (PL : plain KJeffreys p0) by (apply any_plain; exact A0).
  assert (G : forall p l h, plain KJeffreys p -> 0 < l -> l < h -> exists q, setLimits p (Some (Some l, Some h)) = (q, false) /\
    plain KJeffreys q /\ limited_by q (Finite l) (Finite h) /\ Rbar_lt (p_low q) (p_high q)).
  { intros p l h P L H. destruct (setLimits_ok KJeffreys p (Some l) (Some h) P) as [q Q]; [exact H|cbn; lra|].
    exists q. split; [exact Q|].
    assert (PQ : plain KJeffreys q) by (pose proof (setLimits_plain KJeffreys p (Some (Some l, Some h)) P) as Z; rewrite Q in Z; exact Z).
    split; [exact PQ|].
    assert (B : bounded KJeffreys (Some l) (Some h)) by (split; [exists l; auto|discriminate]).
    destruct (setLimits_limited KJeffreys p (Some l) (Some h) q P (bounded_some _ _ _ B) Q (bounded_low _ _ _ B) (bounded_high _ _ _ _ _ P Q B)) as (A1 & A2 & A3).
    auto. }
  assert (C : forall p l h, plain KJeffreys p -> 0 < l -> l < h -> limited_by p (Finite l) (Finite h) -> Rbar_lt (p_low p) (p_high p) ->
    exists q, prior_copy p = Some q /\ plain KJeffreys q /\ limited_by q (Finite l) (Finite h) /\ Rbar_lt (p_low q) (p_high q)).
  { intros p l h P L H LB O. destruct (copy_limited KJeffreys p (Some l) (Some h) I P LB O) as (q & Q1 & Q2 & Q3 & Q4 & Q5 & Q6 & _);
      [cbn; lra|split; [exists l; auto|discriminate]|]. exists q. rewrite Q5, Q6. auto. }
  destruct (G p0 1 10 PL) as (p1 & S1 & L1 & B1 & O1); [lra|lra|].
  destruct (C p1 1 10 L1) as (p2 & S2 & L2 & B2 & O2); [lra|lra|exact B1|exact O1|].
  destruct (G p2 3 5 L2) as (p3 & S3 & L3 & B3 & O3); [lra|lra|].
  destruct (G p3 1 3 L3) as (p4 & S4 & L4 & B4 & O4); [lra|lra|].
  destruct (C p4 1 3 L4) as (p5 & S5 & L5 & B5 & O5); [lra|lra|exact B4|exact O4|].
  destruct (C p5 1 3 L5) as (p6 & S6 & L6 & B6 & O6); [lra|lra|exact B5|exact O5|].
  eexists. eexists. exists p1. split; [|split; [|split]].
  - unfold mkNoise. rewrite P0. unfold mkHyper. rewrite S1. reflexivity.
  - unfold hrun. cbn [app repeat fold_left].
    rewrite (hs_copy _ _ _ _ _ _ _ S2), (hs_lim _ _ _ _ _ _ _ _ S3), (hs_lim _ _ _ _ _ _ _ _ S4), (hs_copy _ _ _ _ _ _ _ S5), (hs_copy _ _ _ _ _ _ _ S6).
    reflexivity.
  - reflexivity.
  - pose proof (any_set KJeffreys p0 (Some (Some 1, Some 10)) A0) as Z. rewrite S1 in Z. exact Z.
Qed.

(** ** Giving limits *)

(** A NoiseScale made with limits is not fixed and has those limits, on the prior given or else on a
    Jeffreys prior, whatever was said about isFixed. *)
Theorem C45_noise_limits : forall v f pr k l h n, mkNoise v f pr (Some (l, h)) = Some n ->
  kok k -> match pr with Some p => anyp k p | None => k = KJeffreys end -> bounded k l h ->
  h_val n = v /\ h_fixed n = false /\ exists q, h_prior n = Some q /\ p_kind q = k /\
    p_low q = lowOf k l /\ p_high q = highOf h /\ domain2Unit q (p_low q) = Some 0 /\ domain2Unit q (p_high q) = Some 1.
Proof.
  intros v f pr k l h n E K P B. unfold mkNoise, mkHyper in E.
  assert (exists p q, anyp k p /\ setLimits p (Some (l, h)) = (q, false) /\ n = mkH v None (Some q) false false false) as (p & q & A & S1 & ->).
  { destruct pr as [p|].
    - destruct (setLimits p (Some (l, h))) as [q e] eqn:S1. destruct e; [discriminate|]. injection E as <-. exists p, q. auto.
    - subst k. destruct (mkPrior KJeffreys None None) as [p|] eqn:P0.
      + destruct (setLimits p (Some (l, h))) as [q e] eqn:S1. destruct e; [discriminate|]. injection E as <-. exists p, q.
        split; [apply (any_new _ None); exact P0|auto].
      + exfalso. unfold mkPrior in P0. cbn [recenter] in P0. unfold setLimits in P0. cbn [fresh p_lodom p_hidom] in P0.
        rewrite leb_true in P0 by (cbn; lra). rewrite ltb_true in P0 by exact I. rewrite leb_true in P0 by exact I. cbn in P0. discriminate. }
  split; [reflexivity|]. split; [reflexivity|]. exists q. split; [reflexivity|].
  assert (L : lastset k l h q) by (eapply last_set; eauto).
  destruct (last_limited k l h q K B L) as (E1 & _). split; [exact E1|]. apply (C24_history k l h q K B L).
Qed.
Print Assumptions C45_noise_limits.

Example C45_noise_limits_example : exists n, mkNoise 2 true None (Some (Some 1, Some 10)) = Some n /\ bounded KJeffreys (Some 1) (Some 10).
Proof. destruct C45_history_example as (n & _ & _ & E & _). exists n. split; [exact E|]. split; [exists 1; split; [reflexivity|lra]|discriminate]. Qed.

(** setLimits later: not fixed any more; refused (ValueError) when there is no prior. *)
Theorem C45_set_limits : forall h lim h', hyper_setLimits h lim = Some h' ->
  h_fixed h' = false /\ h_val h' = h_val h /\ h_stdev h' = h_stdev h /\ exists p q, h_prior h = Some p /\ h_prior h' = Some q /\ setLimits p lim = (q, false).
Proof.
  intros h lim h' E. unfold hyper_setLimits in E. destruct (h_prior h) as [p|]; [|discriminate].
  destruct (setLimits p lim) as [q e] eqn:S1. destruct e; [discriminate|]. injection E as <-. repeat split. exists p, q. auto.
Qed.
Print Assumptions C45_set_limits.

(** ** Where the claim fails *)

Lemma jeff_none : exists p, mkPrior KJeffreys None None = Some p /\ p_low p = Finite 0 /\ p_high p = p_infty /\ plain KJeffreys p.
Proof.
  destruct (mkPrior KJeffreys None None) as [p0|] eqn:P0.
  - exists p0. split; [reflexivity|]. destruct (mkPrior_none _ _ P0) as (E1 & E2 & E3 & E4 & E5 & _). split; [exact E4|]. split; [exact E5|].
    apply any_plain. apply (any_new _ None). exact P0.
  - exfalso. unfold mkPrior in P0. cbn [recenter] in P0. unfold setLimits in P0. cbn [fresh p_lodom p_hidom] in P0.
    rewrite leb_true in P0 by (cbn; lra). rewrite ltb_true in P0 by exact I. rewrite leb_true in P0 by exact I. cbn in P0. discriminate.
Qed.

(** The copy of a NoiseScale always is fixed and without prior: only the value survives. *)
Theorem C45_noise_copy_refuted : forall n, noise_copy n = Some (mkH (h_val n) None None true false (h_min n)).
Proof. reflexivity. Qed.
Print Assumptions C45_noise_copy_refuted.

(** A HyperParameter with limits but no prior stays fixed. *)
Theorem C45_hyper_limits_refuted : forall v l h p, mkHyper v true None (Some (l, h)) = Some p ->
  h_fixed p = true /\ exists q, h_prior p = Some q /\ mkPrior KJeffreys (Some (l, h)) None = Some q.
Proof.
  intros v l h p E. unfold mkHyper in E. destruct (mkPrior KJeffreys (Some (l, h)) None) as [q|]; [|discriminate].
  injection E as <-. split; [reflexivity|]. exists q. auto.
Qed.
Print Assumptions C45_hyper_limits_refuted.

Example C45_hyper_limits_example : exists p, mkHyper 2 true None (Some (Some 1, Some 10)) = Some p.
Proof. destruct (mk_two KJeffreys 1 10 I ltac:(lra)) as [q Q]; [cbn; lra|]. unfold mkHyper. rewrite Q. eexists. reflexivity. Qed.

(** A prior which has limits loses them when it is handed to a hyper-parameter without repeating
    them; a noise scale so made is not fitted, because its prior is not bound. *)
Theorem C45_prior_limits_refuted : exists p n q, mkPrior KJeffreys (Some (Some 1, Some 10)) None = Some p /\
  p_low p = Finite 1 /\ p_high p = Finite 10 /\
  mkNoise 2 true (Some p) None = Some n /\ h_prior n = Some q /\ p_low q = Finite 0 /\ p_high q = p_infty /\
  prior_bound p = true /\ prior_bound q = false /\ makeFitlist 1 false (mkE [n] None) = Some ([0%Z], [2]).
Proof.
  destruct (mk_two KJeffreys 1 10 I ltac:(lra)) as [p P]; [cbn; lra|].
  assert (B : bounded KJeffreys (Some 1) (Some 10)) by (split; [exists 1; split; [reflexivity|lra]|discriminate]).
  assert (LS : lastset KJeffreys (Some 1) (Some 10) p) by (constructor; exact P).
  destruct (C24_history KJeffreys _ _ p I B LS) as (A1 & A2 & _).
  assert (PL : plain KJeffreys p) by (apply any_plain; eapply any_new; exact P).
  destruct (setLimits p None) as [q e] eqn:S1. pose proof PL as (PK & PC & PLO & PHI).
  assert (e = false /\ p_low q = Finite 0 /\ p_high q = p_infty /\ p_lodom q = Finite 0 /\ p_hidom q = p_infty /\ p_kind q = KJeffreys) as (-> & QL & QH & QLO & QHI & QK).
  { unfold setLimits in S1. cbn [fst snd] in S1. rewrite PLO, PHI, PK in S1.
    rewrite leb_true in S1 by (cbn; lra). rewrite ltb_true in S1 by exact I. rewrite leb_true in S1 by exact I. cbn [andb negb] in S1.
    destruct (domain2Unit _ p_infty); [destruct (domain2Unit _ (Finite 0)); [destruct (p_limited p)|]|]; injection S1 as <- <-; cbn; auto 10. }
  exists p, (mkH 2 None (Some q) false false false), q.
  assert (PB : prior_bound q = false).
  { unfold prior_bound. rewrite QK, QL, QLO. rewrite ltb_false; [reflexivity|]. cbn. lra. }
  split; [exact P|]. split; [exact A1|]. split; [exact A2|]. split; [unfold mkNoise, mkHyper; rewrite S1; reflexivity|].
  split; [reflexivity|]. split; [exact QL|]. split; [exact QH|]. split; [|split; [exact PB|]].
  - unfold prior_bound. rewrite PK, PLO, PHI, A1, A2. rewrite !ltb_true; [reflexivity|exact I|cbn; lra].
  - unfold makeFitlist. cbn [e_hyper fit_hyper]. unfold hyper_bound. cbn [h_fixed h_prior option_map]. rewrite PB. reflexivity.
Qed.
Print Assumptions C45_prior_limits_refuted.

(** ** What is fitted *)

(** The hyper-parameters in the fit list are precisely those which are neither fixed nor without
    limits; the others have their own value in allpars, except that with known accuracies the first
    is put to 0. *)
Lemma fit_hyper_spec acc : forall hs first nh fl vs, fit_hyper acc first nh hs = Some (fl, vs) ->
  length vs = length hs /\
  (forall z, In z fl -> (nh <= z < nh + Z.of_nat (length hs))%Z) /\
  forall j h, nth_error hs j = Some h ->
    (In (nh + Z.of_nat j)%Z fl <-> h_fixed h = false /\ hyper_bound h = Some true) /\
    (~ In (nh + Z.of_nat j)%Z fl -> nth_error vs j = Some (if acc && first && (j =? 0)%nat then 0 else h_val h)).
Proof.
  induction hs as [|h hs IH]; intros first nh fl vs E; simpl in E.
  - injection E as <- <-. split; [reflexivity|]. split; [contradiction|]. intros [|j] h H; discriminate.
  - destruct (if h_fixed h then Some false else hyper_bound h) as [b|] eqn:Eb; [|discriminate].
    destruct (fit_hyper acc false (nh + 1) hs) as [[fl' vs']|] eqn:E'; [|discriminate].
    destruct (IH _ _ _ _ E') as (L & Rg & J).
    assert (N0 : ~ In nh fl') by (intro X; apply Rg in X; lia).
    assert (BB : b = true <-> h_fixed h = false /\ hyper_bound h = Some true).
    { destruct (h_fixed h); [injection Eb as <-; split; [discriminate|intros [? _]; discriminate]|]. rewrite Eb. split; [intros ->; auto|intros [_ X]; congruence]. }
    assert (RES : forall z, In z fl -> (nh <= z < nh + Z.of_nat (S (length hs)))%Z).
    { intros z Z. destruct b; [injection E as <- <-; destruct Z as [<-|Z]; [lia|]; apply Rg in Z; lia|].
      destruct (acc && first); injection E as <- <-; apply Rg in Z; lia. }
    split; [destruct b; [|destruct (acc && first)]; injection E as <- <-; simpl; congruence|]. split; [exact RES|].
    intros [|j] g G; simpl in G.
    + injection G as <-. rewrite Z.add_0_r, Nat.eqb_refl, andb_true_r.
      destruct b.
      * injection E as <- <-. split; [split; [intros _; apply BB; reflexivity|intros _; left; reflexivity]|]. intro X. destruct X. left. reflexivity.
      * assert (NB : ~ (h_fixed h = false /\ hyper_bound h = Some true)) by (intro X; apply BB in X; discriminate).
        destruct (acc && first); injection E as <- <-; (split; [split; [intro X; contradiction|intro X; contradiction]|]); intros _; reflexivity.
    + destruct (J j g G) as [J1 J2].
      replace (nh + Z.of_nat (S j))%Z with (nh + 1 + Z.of_nat j)%Z by lia.
      assert (NE : (nh + 1 + Z.of_nat j)%Z <> nh) by lia.
      assert (Q : In (nh + 1 + Z.of_nat j)%Z fl <-> In (nh + 1 + Z.of_nat j)%Z fl').
      { destruct b; [injection E as <- <-; simpl; split; [intros [X|X]; [congruence|exact X]|auto]|].
        destruct (acc && first); injection E as <- <-; tauto. }
      split; [rewrite Q; exact J1|]. intro X. rewrite Q in X. specialize (J2 X). rewrite andb_false_r in J2. cbn [andb] in J2.
      replace (S j =? 0)%nat with false by reflexivity. rewrite andb_false_r.
      destruct b; [|destruct (acc && first)]; injection E as <- <-; simpl; exact J2.
Qed.

Theorem C45_fitlist : forall np acc e fl vs, makeFitlist np acc e = Some (fl, vs) ->
  length vs = length (e_hyper e) /\
  (forall k, (k < np)%nat -> In (Z.of_nat k) fl) /\
  (forall z, In z fl -> (- Z.of_nat (length (e_hyper e)) <= z < Z.of_nat np)%Z) /\
  forall j h, nth_error (e_hyper e) j = Some h ->
    (In (Z.of_nat j - Z.of_nat (length (e_hyper e)))%Z fl <-> h_fixed h = false /\ hyper_bound h = Some true) /\
    (~ In (Z.of_nat j - Z.of_nat (length (e_hyper e)))%Z fl ->
       nth_error vs j = Some (if acc && (j =? 0)%nat then 0 else h_val h)).
Proof.
  intros np acc e fl vs E. unfold makeFitlist in E.
  destruct (fit_hyper acc true _ (e_hyper e)) as [[fh vh]|] eqn:F; [|discriminate]. injection E as <- <-.
  destruct (fit_hyper_spec _ _ _ _ _ _ F) as (L & Rg & J). set (N := length (e_hyper e)) in *.
  split; [exact L|]. split; [|split].
  - intros k K. apply in_or_app. left. apply in_map. apply in_seq. lia.
  - intros z Z. apply in_app_or in Z. destruct Z as [Z|Z]; [|apply Rg in Z; lia].
    apply in_map_iff in Z. destruct Z as (k & <- & K). apply in_seq in K. lia.
  - intros j h H. destruct (J j h H) as [J1 J2].
    assert (LT : (j < N)%nat) by (apply nth_error_Some; congruence).
    replace (Z.of_nat j - Z.of_nat N)%Z with (- Z.of_nat N + Z.of_nat j)%Z by lia.
    assert (Q : In (- Z.of_nat N + Z.of_nat j)%Z (map Z.of_nat (seq 0 np) ++ fh) <-> In (- Z.of_nat N + Z.of_nat j)%Z fh).
    { split; [|intro; apply in_or_app; auto]. intro X. apply in_app_or in X. destruct X as [X|X]; [|exact X].
      apply in_map_iff in X. destruct X as (k & X & _). lia. }
    rewrite Q. split; [exact J1|]. intro X. specialize (J2 X). rewrite andb_true_r in J2. exact J2.
Qed.
Print Assumptions C45_fitlist.

(** The power of the Exponential distribution is never fitted, not even when limits are given. *)
Theorem C45_power_refuted : forall np acc sc pw sl ph e fl vs, mkExpon sc pw sl ph = Some e ->
  makeFitlist np acc e = Some (fl, vs) -> ~ In (-1)%Z fl.
Proof.
  intros np acc sc pw sl ph e fl vs E F. unfold mkExpon in E.
  destruct (mkScaled 1 None None) as [b|]; [|discriminate]. destruct (mkNoise sc true None sl) as [n|] eqn:N; [|discriminate].
  destruct (mkHyper pw true None ph) as [p|] eqn:P; [|discriminate]. injection E as <-.
  assert (FX : h_fixed p = true).
  { unfold mkHyper in P. destruct ph; [destruct (mkPrior KJeffreys (Some p0) None); [|discriminate]|]; injection P as <-; reflexivity. }
  destruct (C45_fitlist _ _ _ _ _ F) as (_ & _ & _ & J). destruct (J 1%nat p eq_refl) as [J1 _]. cbn in J1.
  intro X. apply J1 in X. destruct X as [X _]. congruence.
Qed.
Print Assumptions C45_power_refuted.

Example C45_power_example : exists e r, mkExpon 1 2 (Some (Some 1, Some 10)) (Some (Some 1, Some 10)) = Some e /\
  makeFitlist 3 false e = Some r.
Proof.
  destruct (mk_two KJeffreys 1 10 I ltac:(lra)) as [q Q]; [cbn; lra|].
  destruct C45_noise_limits_example as (n & N & B).
  assert (N1 : exists n1, mkNoise 1 true None (Some (Some 1, Some 10)) = Some n1 /\ hyper_bound n1 <> None).
  { unfold mkNoise, mkHyper in *. destruct jeff_none as (p0 & J0 & _). rewrite J0 in *.
    destruct (setLimits p0 (Some (Some 1, Some 10))) as [q0 e]. destruct e; [discriminate|]. eexists. split; [reflexivity|]. discriminate. }
  destruct N1 as (n1 & N1 & HB).
  assert (S0 : exists b, mkScaled 1 None None = Some b) by (unfold mkScaled; cbn; eexists; reflexivity). destruct S0 as [b S0].
  exists (mkE [n1; mkH 2 None (Some q) true false false] (e_fixed b)).
  assert (M : mkExpon 1 2 (Some (Some 1, Some 10)) (Some (Some 1, Some 10)) = Some (mkE [n1; mkH 2 None (Some q) true false false] (e_fixed b))).
  { unfold mkExpon. rewrite S0, N1. unfold mkHyper. rewrite Q. reflexivity. }
  rewrite M. unfold makeFitlist. cbn [e_hyper fit_hyper h_fixed]. destruct (h_fixed n1); [eexists; split; reflexivity|].
  destruct (hyper_bound n1) as [bb|]; [|congruence]. destruct bb; eexists; split; reflexivity.
Qed.

(** ErrorDistribution.keepFixed does not keep a hyper-parameter out of the fit. *)
Theorem C45_keep_refuted : forall np acc e d hs, errdis_keep e (Some d) = Some hs ->
  option_map fst (makeFitlist np acc (mkE hs (Some d))) = option_map fst (makeFitlist np acc e).
Proof.
  intros np acc e d hs E.
  assert (G : forall (xs ys : list hyper), Forall2 (fun x y => h_fixed x = h_fixed y /\ h_prior x = h_prior y) xs ys ->
     forall first nh, option_map fst (fit_hyper acc first nh xs) = option_map fst (fit_hyper acc first nh ys)).
  { induction 1 as [|x y xs ys [H1 H2] H IH]; intros first nh; [reflexivity|]. simpl. unfold hyper_bound. rewrite H1, H2.
    specialize (IH false (nh + 1)%Z). destruct (if h_fixed y then Some false else option_map prior_bound (h_prior y)) as [b|]; [|reflexivity].
    destruct (fit_hyper acc false (nh + 1) xs) as [[a1 b1]|], (fit_hyper acc false (nh + 1) ys) as [[a2 b2]|]; cbn in IH; try discriminate; [|reflexivity].
    injection IH as ->. destruct b; [reflexivity|]. destruct (acc && first); reflexivity. }
  assert (K : Forall2 (fun x y => h_fixed x = h_fixed y /\ h_prior x = h_prior y) hs (e_hyper e)).
  { unfold errdis_keep, keepFixed in E.
    assert (U : forall l, Forall2 (fun x y => h_fixed x = h_fixed y /\ h_prior x = h_prior y) (map unkeep l) l) by (induction l; constructor; auto).
    specialize (U (e_hyper e)).
    assert (K1 : forall xs k v ys, keep1 xs k v = Some ys -> forall zs, Forall2 (fun x y => h_fixed x = h_fixed y /\ h_prior x = h_prior y) xs zs ->
      Forall2 (fun x y => h_fixed x = h_fixed y /\ h_prior x = h_prior y) ys zs).
    { induction xs as [|x xs IH]; intros k v ys K zs Z; [destruct k; discriminate|]. inversion Z; subst. destruct k as [|k]; simpl in K.
      - injection K as <-. constructor; auto.
      - destruct (keep1 xs k v) eqn:KK; [|discriminate]. injection K as <-. constructor; [auto|]. eapply IH; eauto. }
    revert U E. generalize (map unkeep (e_hyper e)). revert hs. induction d as [|[k v] d IH]; intros hs xs U E; simpl in E.
    - injection E as <-. exact U.
    - destruct (keep1 xs k v) as [xs'|] eqn:KK; [|discriminate]. eapply IH; [|exact E]. eapply K1; eauto. }
  unfold makeFitlist. cbn [e_hyper].
  assert (LEN : length hs = length (e_hyper e)) by (clear - K; induction K; simpl; congruence). rewrite LEN.
  specialize (G _ _ K true (- Z.of_nat (length (e_hyper e)))%Z).
  destruct (fit_hyper acc true _ hs) as [[a1 b1]|], (fit_hyper acc true _ (e_hyper e)) as [[a2 b2]|]; cbn in G; try discriminate; [|reflexivity].
  injection G as ->. reflexivity.
Qed.
Print Assumptions C45_keep_refuted.

Example C45_keep_example : exists e hs, mkScaled 3 (Some (Some 1, Some 10)) None = Some e /\ errdis_keep e (Some [(0%nat, 2)]) = Some hs.
Proof.
  destruct C45_noise_limits_example as (n & N & B).
  assert (exists n3, mkNoise 3 true None (Some (Some 1, Some 10)) = Some n3) as (n3 & N3).
  { unfold mkNoise, mkHyper in *. destruct jeff_none as (p0 & J0 & _). rewrite J0 in *.
    destruct (setLimits p0 (Some (Some 1, Some 10))) as [q0 e]. destruct e; [discriminate|]. eexists. reflexivity. }
  eexists. eexists. unfold mkScaled. cbn [keepFixed map]. rewrite N3. split; [reflexivity|]. reflexivity.
Qed.

(** keepFixed marks those that are named in it, with the values given, and frees all others; nothing else changes *)
Lemma keep1_nth : forall hs k v hs', keep1 hs k v = Some hs' -> (k < length hs)%nat /\ length hs' = length hs /\
  forall j h, nth_error hs j = Some h -> exists h', nth_error hs' j = Some h' /\ h_prior h' = h_prior h /\ h_fixed h' = h_fixed h /\
    (j = k -> h_kept h' = true /\ h_val h' = v) /\ (j <> k -> h' = h).
Proof.
  induction hs as [|x hs IH]; intros k v hs' H; [destruct k; discriminate|]. destruct k as [|k]; cbn in H.
  - injection H as <-. split; [cbn; lia|]. split; [reflexivity|]. intros [|j] h E; cbn in E |- *.
    + injection E as ->. eexists. split; [reflexivity|]. repeat split; intros; congruence.
    + exists h. repeat split; try assumption; intros; congruence.
  - destruct (keep1 hs k v) as [hs1|] eqn:K; [|discriminate]. injection H as <-. destruct (IH k v hs1 K) as (A & B & C). split; [cbn; lia|]. split; [cbn; congruence|].
    intros [|j] h E; cbn in E |- *.
    + injection E as ->. exists h. repeat split; intros; try congruence; lia.
    + destruct (C j h E) as (h' & C1 & C2 & C3 & C4 & C5). exists h'. repeat split; try assumption; intros; [apply C4; lia|apply C4; lia|apply C5; lia].
Qed.
Lemma keepAll_nth : forall d hs hs', keepAll hs d = Some hs' -> NoDup (map fst d) -> length hs' = length hs /\ (forall k v, In (k, v) d -> (k < length hs)%nat) /\
  forall j h, nth_error hs j = Some h -> exists h', nth_error hs' j = Some h' /\ h_prior h' = h_prior h /\ h_fixed h' = h_fixed h /\
    (forall v, In (j, v) d -> h_kept h' = true /\ h_val h' = v) /\ (~ In j (map fst d) -> h' = h).
Proof.
  induction d as [|[k v] d IH]; intros hs hs' H N; cbn in H.
  - injection H as <-. split; [reflexivity|]. split; [intros ? ? []|]. intros j h E. exists h. repeat split; try assumption; contradiction.
  - destruct (keep1 hs k v) as [hs1|] eqn:K; [|discriminate]. inversion N as [|? ? N1 N2]; subst. cbn in N1.
    destruct (keep1_nth _ _ _ _ K) as (A & B & C). destruct (IH hs1 hs' H N2) as (D & E & F). split; [congruence|]. split.
    { intros k0 v0 [I0|I0]; [injection I0 as <- <-; exact A|]. rewrite <- B. eapply E. exact I0. }
    intros j h J. destruct (C j h J) as (h1 & C1 & C2 & C3 & C4 & C5). destruct (F j h1 C1) as (h2 & F1 & F2 & F3 & F4 & F5). exists h2.
    split; [exact F1|]. split; [congruence|]. split; [congruence|]. split.
    + intros v0 [I0|I0]; [injection I0 as <- <-|apply F4; exact I0]. rewrite F5 by exact N1. apply C4. reflexivity.
    + intros I0. cbn in I0. rewrite F5 by tauto. apply C5. intros ->. apply I0. left. reflexivity.
Qed.
Theorem C45_keep_marks : forall e d hs, errdis_keep e (Some d) = Some hs -> NoDup (map fst d) ->
  length hs = length (e_hyper e) /\ (forall k v, In (k, v) d -> (k < length hs)%nat) /\
  forall j h, nth_error (e_hyper e) j = Some h -> exists h', nth_error hs j = Some h' /\ h_prior h' = h_prior h /\ h_fixed h' = h_fixed h /\
    (forall v, In (j, v) d -> h_kept h' = true /\ h_val h' = v) /\ (~ In j (map fst d) -> h_kept h' = false /\ h_val h' = h_val h).
Proof.
  intros e d hs H N. unfold errdis_keep, keepFixed in H. destruct (keepAll_nth _ _ _ H N) as (A & B & C). rewrite map_length in *.
  split; [exact A|]. split; [intros k v I0; rewrite A; eapply B; exact I0|]. intros j h J.
  destruct (C j (unkeep h)) as (h' & C1 & C2 & C3 & C4 & C5); [rewrite nth_error_map, J; reflexivity|].
  exists h'. split; [exact C1|]. split; [exact C2|]. split; [exact C3|]. split; [exact C4|]. intros I0. rewrite C5 by exact I0. split; reflexivity.
Qed.
(** Without arguments it frees all of them *)
Theorem C45_keep_none : forall e hs, errdis_keep e None = Some hs -> length hs = length (e_hyper e) /\
  forall j h, nth_error (e_hyper e) j = Some h -> exists h', nth_error hs j = Some h' /\ h_kept h' = false /\ h_val h' = h_val h /\ h_prior h' = h_prior h /\ h_fixed h' = h_fixed h.
Proof.
  intros e hs H. unfold errdis_keep, keepFixed in H. injection H as <-. split; [apply map_length|]. intros j h J. exists (unkeep h).
  rewrite nth_error_map, J. repeat split.
Qed.
(** A scaled distribution has one hyper-parameter, with the scale as its value.  Without limits it is kept at that value; with limits it is not *)
Theorem C45_scaled : forall scale lim e, mkScaled scale lim None = Some e -> exists h, e_hyper e = [h] /\ h_val h = scale /\
  (h_kept h = true <-> lim = None) /\ (lim = None -> e_fixed e = Some [(0%nat, scale)]) /\ (lim <> None -> e_fixed e = None).
Proof.
  intros scale lim e H. unfold mkScaled in H. cbn [keepFixed map] in H.
  destruct (mkNoise scale true None lim) as [n|] eqn:N; [|discriminate].
  destruct lim as [l|].
  - injection H as <-. exists n. split; [reflexivity|].
    assert (G : h_val n = scale /\ h_kept n = false).
    { unfold mkNoise, mkHyper in N. destruct (mkPrior KJeffreys None None) as [p|]; [destruct (setLimits p (Some l)) as [q [|]]; [discriminate|]|destruct (mkPrior KJeffreys (Some l) None); [|discriminate]]; injection N as <-; split; reflexivity. }
    destruct G as [G1 G2]. split; [exact G1|]. split; [rewrite G2; split; discriminate|]. split; [discriminate|reflexivity].
  - cbn in H. injection H as <-. eexists. split; [reflexivity|]. cbn. repeat split; intros; try reflexivity; congruence.
Qed.
Example C45_scaled_ex : exists e, mkScaled 3 None None = Some e /\ map h_kept (e_hyper e) = [true]
  /\ exists hs, errdis_keep e None = Some hs /\ map h_kept hs = [false].
Proof. eexists. split; [reflexivity|]. split; [reflexivity|]. eexists. split; reflexivity. Qed.
Print Assumptions C45_keep_marks. Print Assumptions C45_scaled.

(** The argument fixed of ScaledErrorDistribution with any index raises: the hyper-parameters are
    not there yet when it is used. *)
Theorem C45_fixed_argument_refuted : forall scale lim k v d, mkScaled scale lim (Some ((k, v) :: d)) = None.
Proof. reflexivity. Qed.
Print Assumptions C45_fixed_argument_refuted.

(** Copying an error distribution puts the scale to 1: that of the copy and that of the original. *)
Theorem C45_errdis_copy_refuted : forall scale e o c, mkScaled scale None None = Some e -> scaled_copy e = Some (o, c) ->
  option_map h_val (hd_error (e_hyper e)) = Some scale /\
  option_map h_val (hd_error (e_hyper o)) = Some 1 /\ option_map h_val (hd_error (e_hyper c)) = Some 1.
Proof.
  intros scale e o c E C. unfold mkScaled in E. cbn in E. injection E as <-.
  unfold scaled_copy in C. cbn in C. injection C as <- <-. auto.
Qed.
Print Assumptions C45_errdis_copy_refuted.

Example C45_errdis_copy_example : exists e o c, mkScaled 3 None None = Some e /\ scaled_copy e = Some (o, c).
Proof. do 3 eexists. split; reflexivity. Qed.

(** The hyper-parameters of a mixture: those of the first distribution, those of the second, and the
    fraction as the last one. *)
Theorem C45_mixed_order : forall e1 e2 v lim e, mkMixed e1 e2 v lim = Some e ->
  length (e_hyper e) = (length (e_hyper e1) + length (e_hyper e2) + 1)%nat /\
  (forall j h, nth_error (e_hyper e1) j = Some h -> nth_error (e_hyper e) j = Some h) /\
  (forall j h, nth_error (e_hyper e2) j = Some h -> nth_error (e_hyper e) (length (e_hyper e1) + j) = Some h) /\
  exists h, nth_error (e_hyper e) (length (e_hyper e1) + length (e_hyper e2)) = Some h /\ h_val h = v.
Proof.
  intros e1 e2 v lim e E. unfold mkMixed in E. destruct (mkPrior KUniform None None) as [p|]; [|discriminate].
  destruct (mkHyper v true (Some p) lim) as [h|] eqn:H; [|discriminate]. injection E as <-. cbn [e_hyper].
  split; [rewrite !app_length; simpl; lia|].
  split; [intros j h' J; rewrite nth_error_app1; [exact J|apply nth_error_Some; congruence]|].
  split; [intros j h' J; rewrite nth_error_app2 by lia; replace (length (e_hyper e1) + j - length (e_hyper e1))%nat with j by lia;
          rewrite nth_error_app1; [exact J|apply nth_error_Some; congruence]|].
  exists h. split.
  - rewrite nth_error_app2 by lia. rewrite nth_error_app2 by lia.
    replace (length (e_hyper e1) + length (e_hyper e2) - length (e_hyper e1) - length (e_hyper e2))%nat with 0%nat by lia. reflexivity.
  - unfold mkHyper in H. repeat (match type of H with context [match ?x with _ => _ end] => destruct x end; try discriminate); injection H as <-; reflexivity.
Qed.
Print Assumptions C45_mixed_order.

Example C45_mixed_order_example : exists a b e, mkScaled 2 None None = Some a /\ mkScaled 3 None None = Some b /\
  mkMixed a b (1/2) None = Some e /\ map h_val (e_hyper e) = [2; 3; 1/2].
Proof.
  do 3 eexists. split; [reflexivity|]. split; [reflexivity|]. split.
  - unfold mkMixed, mkHyper, mkPrior. cbn [recenter]. unfold setLimits. cbn [fresh p_lodom p_hidom].
    rewrite !leb_true by (try exact I; cbn; lra). rewrite ltb_true by exact I. cbn [andb negb].
    unfold setu. unfold domain2Unit. cbn. rewrite !leb_true by (try exact I; cbn; lra). rewrite ?ltb_true by exact I. cbn. reflexivity.
  - reflexivity.
Qed.
