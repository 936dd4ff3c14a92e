(** C41: cyclic residuals. *)
From Coq Require Import Reals List Lra Lia.
From Verif Require Import M_Order P_Order M_Cyclic.
Import ListNotations.
Local Open Scope R_scope.

(** equal modulo the period *)
Definition congruent (period a b : R) : Prop := exists k : Z, b = a + IZR k * period.

Lemma cyc1_cases p r : (r < - (p / 2) /\ cyc1 p r = r + p) \/ (- (p / 2) <= r /\ p / 2 < r /\ cyc1 p r = r - p)
  \/ (- (p / 2) <= r <= p / 2 /\ cyc1 p r = r).
Proof. unfold cyc1. destruct (Rlt_dec _ _); [left; auto|]. destruct (Rlt_dec _ _); right; [left|right]; repeat split; lra. Qed.

(** Nothing changes modulo the period, whatever the residual. *)
Theorem C41_congruent : forall p res, length (cyclize p res) = length res /\
  forall i r, nth_error res i = Some r -> exists c, nth_error (cyclize p res) i = Some c /\ congruent p r c.
Proof.
  intros p res. split; [apply map_length|]. intros i r H. exists (cyc1 p r).
  split; [unfold cyclize; rewrite nth_error_map, H; reflexivity|].
  destruct (cyc1_cases p r) as [(_ & ->)|[(_ & _ & ->)|(_ & ->)]]; [exists 1%Z|exists (-1)%Z|exists 0%Z]; ring.
Qed.
Print Assumptions C41_congruent.

(** Residuals up to one and a half period end up within half a period. *)
Theorem C41_interval : forall p res i r c, 0 < p -> nth_error res i = Some r -> Rabs r <= 3 / 2 * p ->
  nth_error (cyclize p res) i = Some c -> - (p / 2) <= c <= p / 2.
Proof.
  intros p res i r c P H A C. unfold cyclize in C. rewrite nth_error_map, H in C. injection C as <-.
  assert (- (3 / 2 * p) <= r <= 3 / 2 * p) by (split_Rabs; lra).
  destruct (cyc1_cases p r) as [(? & ->)|[(? & ? & ->)|(? & ->)]]; lra.
Qed.
Print Assumptions C41_interval.

(** and a residual which already was there stays as it is. *)
Theorem C41_identity : forall p res, Forall (fun r => - (p / 2) <= r <= p / 2) res -> cyclize p res = res.
Proof.
  intros p res. unfold cyclize. induction 1 as [|r l Hr _ IH]; [reflexivity|]. simpl. rewrite IH.
  f_equal. destruct (cyc1_cases p r) as [(? & E)|[(? & ? & E)|(? & E)]]; lra.
Qed.
Print Assumptions C41_identity.

(** With data and model both within one period (the case the documentation describes) the absolute
    residual is the shortest distance on the circle. *)
Theorem C41_shortest : forall p ydata yfit out, 0 < p ->
  Forall (fun y => 0 <= y <= p) ydata -> Forall (fun y => 0 <= y <= p) yfit ->
  residuals (Cyc p) ydata yfit = Some out ->
  forall i y f c, nth_error ydata i = Some y -> nth_error yfit i = Some f -> nth_error out i = Some c ->
    congruent p (y - f) c /\ (forall k : Z, Rabs c <= Rabs (y - f + IZR k * p)).
Proof.
  intros p ydata yfit out P FY FF E i y f c HY HF HC. injection E as <-.
  assert (0 <= y <= p) as Y by (eapply (proj1 (Forall_forall _ _) FY); eapply nth_error_In; eauto).
  assert (0 <= f <= p) as F by (eapply (proj1 (Forall_forall _ _) FF); eapply nth_error_In; eauto).
  assert (HR : nth_error (vsub ydata yfit) i = Some (y - f)).
  { clear - HY HF. revert yfit i HY HF. induction ydata as [|a l IH]; intros [|b m] [|i] HY HF; simpl in *; try discriminate.
    - injection HY as ->. injection HF as ->. reflexivity.
    - apply IH; assumption. }
  pose proof (proj2 (C41_congruent p (vsub ydata yfit)) i _ HR) as (c' & HC' & CG). rewrite HC in HC'. injection HC' as <-.
  split; [exact CG|].
  assert (I : - (p / 2) <= c <= p / 2).
  { apply (C41_interval p (vsub ydata yfit) i (y - f) c P HR); [|exact HC]. split_Rabs; lra. }
  intro k. destruct CG as [m ->]. set (r := y - f) in *.
  destruct (Z.eq_dec k m) as [->|N]; [lra|].
  assert (r + IZR k * p = (r + IZR m * p) + IZR (k - m) * p) as -> by (rewrite minus_IZR; ring).
  set (c := r + IZR m * p) in *.
  assert (IZR (k - m) <= -1 \/ 1 <= IZR (k - m)) as [Q|Q].
  { assert (k - m <= -1 \/ 1 <= k - m)%Z as [Q|Q] by lia; [left|right]; apply IZR_le in Q; exact Q. }
  - assert (IZR (k - m) * p <= - p) by nra. split_Rabs; lra.
  - assert (p <= IZR (k - m) * p) by nra. split_Rabs; lra.
Qed.
Print Assumptions C41_shortest.

Example C41_shortest_example : exists out, residuals (Cyc 10) [9; 5] [1; 4] = Some out /\ out = [-2; 1].
Proof.
  eexists. split; [reflexivity|]. cbn [combine map fst snd vsub cyclize].
  destruct (cyc1_cases 10 (9 - 1)) as [(? & E1)|[(? & ? & E1)|(? & E1)]]; [lra| |lra].
  destruct (cyc1_cases 10 (5 - 4)) as [(? & E2)|[(? & ? & E2)|(? & E2)]]; [lra|lra|].
  rewrite E1, E2. f_equal; [lra|f_equal; lra].
Qed.

(** Larger residuals (a model running freely beyond one period) are not brought within half a period. *)
Theorem C41_large_refuted : exists p y f c, 0 < p /\ residuals (Cyc p) [y] [f] = Some [c] /\
  p / 2 < c /\ ~ (forall k : Z, Rabs c <= Rabs (y - f + IZR k * p)).
Proof.
  exists 1, 3, 1, 1. split; [lra|].
  destruct (cyc1_cases 1 (3 - 1)) as [(? & E1)|[(? & ? & E1)|(? & E1)]]; [lra| |lra].
  split; [unfold residuals, vsub, cyclize; cbn [combine map fst snd]; rewrite E1; f_equal; f_equal; lra|]. split; [lra|].
  intro A. specialize (A (-2)%Z). replace (3 - 1 + -2 * 1) with 0 in A by ring. split_Rabs; lra.
Qed.
Print Assumptions C41_large_refuted.

(** More outputs: only the listed columns change, each with its own period. *)
Lemma cyc_row_spec d : NoDup (map fst d) -> forall row out, cyc_row d row = Some out ->
  length out = length row /\
  (forall k p, In (k, p) d -> exists v, nth_error row k = Some v /\ nth_error out k = Some (cyc1 p v)) /\
  (forall k, ~ In k (map fst d) -> nth_error out k = nth_error row k).
Proof.
  induction d as [|[k p] d IH]; intros N row out E; simpl in E.
  - injection E as <-. split; [reflexivity|]. split; [contradiction|reflexivity].
  - simpl in N. apply NoDup_cons_iff in N. destruct N as [N1 N2].
    destruct (nth_error row k) as [v|] eqn:V; [|discriminate].
    assert (K : (k < length row)%nat) by (apply nth_error_Some; congruence).
    destruct (IH N2 _ _ E) as (A & B & C). rewrite upd_length in A. split; [exact A|]. split.
    + intros k' p' [H|H].
      * injection H as <- <-. exists v. split; [exact V|]. rewrite (C k N1). apply upd_nth_same. exact K.
      * destruct (B _ _ H) as (w & B1 & B2). assert (k' <> k) by (intros ->; apply N1; apply (in_map fst) in H; exact H).
        rewrite upd_nth_other in B1 by congruence. exists w. auto.
    + intros k' Hn. simpl in Hn. rewrite C by tauto. apply upd_nth_other. tauto.
Qed.

Lemma sequence_nth {A} (l : list (option A)) : forall out, sequence l = Some out ->
  length out = length l /\ forall i a, nth_error out i = Some a <-> nth_error l i = Some (Some a).
Proof.
  induction l as [|[x|] l IH]; simpl; intros out E; try discriminate.
  - injection E as <-. split; [reflexivity|]. intros [|i] a; simpl; split; discriminate.
  - destruct (sequence l) as [t|] eqn:S'; [|discriminate]. injection E as <-. destruct (IH t eq_refl) as [L H].
    split; [simpl; congruence|]. intros [|i] a; simpl; [split; congruence|apply H].
Qed.

Theorem C41_columns : forall d ydata yfit out, NoDup (map fst d) -> residuals2 (CycD d) ydata yfit = Some out ->
  forall i y f, nth_error ydata i = Some y -> nth_error yfit i = Some f -> length y = length f ->
  exists row, nth_error out i = Some row /\ length row = length y /\
    forall k yk fk, nth_error y k = Some yk -> nth_error f k = Some fk -> exists c, nth_error row k = Some c /\
      (forall p, In (k, p) d -> congruent p (yk - fk) c /\ (0 < p -> Rabs (yk - fk) <= 3 / 2 * p -> - (p / 2) <= c <= p / 2)) /\
      (~ In k (map fst d) -> c = yk - fk).
Proof.
  intros d ydata yfit out N E i y f HY HF L. unfold residuals2, cycor2 in E.
  destruct (sequence_nth _ _ E) as [LO H].
  assert (HR : nth_error (map (fun p => vsub (fst p) (snd p)) (combine ydata yfit)) i = Some (vsub y f)).
  { clear - HY HF. revert yfit i HY HF. induction ydata as [|a l IH]; intros [|b m] [|i] HY HF; simpl in *; try discriminate.
    - injection HY as ->. injection HF as ->. reflexivity.
    - apply IH; assumption. }
  assert (LI : (i < length out)%nat).
  { rewrite LO, map_length. apply nth_error_Some. congruence. }
  destruct (nth_error out i) as [row|] eqn:R; [|apply nth_error_None in R; lia].
  apply H in R. rewrite nth_error_map, HR in R. simpl in R. injection R as R.
  destruct (cyc_row_spec d N _ _ R) as (A & B & C).
  assert (LV : length (vsub y f) = length y) by (unfold vsub; rewrite map_length, combine_length; lia).
  exists row. split; [reflexivity|]. split; [congruence|]. intros k yk fk Hy Hf.
  assert (HV : nth_error (vsub y f) k = Some (yk - fk)).
  { clear - Hy Hf. revert f k Hy Hf. induction y as [|a l IH]; intros [|b m] [|k] HY HF; simpl in *; try discriminate.
    - injection HY as ->. injection HF as ->. reflexivity.
    - apply IH; assumption. }
  assert (LK : (k < length row)%nat) by (rewrite A; apply nth_error_Some; congruence).
  destruct (nth_error row k) as [c|] eqn:RC; [|apply nth_error_None in RC; lia].
  exists c. split; [reflexivity|]. split.
  - intros p Hp. destruct (B _ _ Hp) as (v & B1 & B2). rewrite HV in B1. injection B1 as <-. rewrite RC in B2. injection B2 as ->.
    split.
    + destruct (proj2 (C41_congruent p [yk - fk]) 0%nat _ eq_refl) as (c & E1 & E2). simpl in E1. injection E1 as <-. exact E2.
    + intros P Q. apply (C41_interval p [yk - fk] 0%nat (yk - fk) _ P eq_refl Q). reflexivity.
  - intro Hn. rewrite (C k Hn), HV in RC. congruence.
Qed.
Print Assumptions C41_columns.

Example C41_columns_example : exists out, residuals2 (CycD [(1%nat, 10)]) [[9; 9]] [[1; 1]] = Some out /\ out = [[8; -2]].
Proof.
  exists [[9 - 1; cyc1 10 (9 - 1)]]. split; [reflexivity|]. destruct (cyc1_cases 10 (9 - 1)) as [(? & E1)|[(? & ? & E1)|(? & E1)]]; [lra| |lra].
  rewrite E1. repeat f_equal; lra.
Qed.

(** One period for more outputs: every column is wrapped.  Without a period the residuals are the
    differences, and a dictionary for data without columns raises. *)
Theorem C41_one_period : forall p ydata yfit out, residuals2 (Cyc p) ydata yfit = Some out ->
  forall i y f, nth_error ydata i = Some y -> nth_error yfit i = Some f ->
  exists row, nth_error out i = Some row /\
    forall k yk fk, nth_error y k = Some yk -> nth_error f k = Some fk -> exists c, nth_error row k = Some c /\
      congruent p (yk - fk) c /\ (0 < p -> Rabs (yk - fk) <= 3 / 2 * p -> - (p / 2) <= c <= p / 2).
Proof.
  intros p ydata yfit out E i y f HY HF. injection E as <-.
  assert (HR : nth_error (combine ydata yfit) i = Some (y, f)).
  { clear - HY HF. revert yfit i HY HF. induction ydata as [|a l IH]; intros [|b m] [|i] HY HF; simpl in *; try discriminate.
    - injection HY as ->. injection HF as ->. reflexivity.
    - apply IH; assumption. }
  exists (cyclize p (vsub y f)). split; [rewrite !nth_error_map, HR; reflexivity|]. intros k yk fk Hy Hf.
  assert (HV : nth_error (vsub y f) k = Some (yk - fk)).
  { clear - Hy Hf. revert f k Hy Hf. induction y as [|a l IH]; intros [|b m] [|k] HY HF; simpl in *; try discriminate.
    - injection HY as ->. injection HF as ->. reflexivity.
    - apply IH; assumption. }
  destruct (proj2 (C41_congruent p (vsub y f)) k _ HV) as (c & E1 & E2). exists c. split; [exact E1|]. split; [exact E2|].
  intros P Q. exact (C41_interval p _ k _ c P HV Q E1).
Qed.
Print Assumptions C41_one_period.

Example C41_one_period_example : exists a b, residuals2 (Cyc 10) [[9; 2]] [[1; 1]] = Some [[a; b]] /\ a = -2 /\ b = 1.
Proof.
  exists (cyc1 10 (9 - 1)), (cyc1 10 (2 - 1)). split; [reflexivity|].
  destruct (cyc1_cases 10 (9 - 1)) as [(? & E1)|[(? & ? & E1)|(? & E1)]]; [lra| |lra].
  destruct (cyc1_cases 10 (2 - 1)) as [(? & E2)|[(? & ? & E2)|(? & E2)]]; [lra|lra|]. lra.
Qed.

Theorem C41_plain :
  (forall ydata yfit out, residuals NoCyc ydata yfit = Some out ->
     forall i y f, nth_error ydata i = Some y -> nth_error yfit i = Some f -> nth_error out i = Some (y - f)) /\
  (forall ydata yfit out, residuals2 NoCyc ydata yfit = Some out ->
     forall i y f, nth_error ydata i = Some y -> nth_error yfit i = Some f ->
     exists row, nth_error out i = Some row /\ forall k yk fk, nth_error y k = Some yk -> nth_error f k = Some fk -> nth_error row k = Some (yk - fk)) /\
  (forall kp d ydata yfit, residuals (CycD (kp :: d)) ydata yfit = None).
Proof.
  assert (V : forall ydata yfit i (y f : R), nth_error ydata i = Some y -> nth_error yfit i = Some f -> nth_error (vsub ydata yfit) i = Some (y - f)).
  { induction ydata as [|a l IH]; intros [|b m] [|i] y f HY HF; simpl in *; try discriminate.
    - injection HY as ->. injection HF as ->. reflexivity.
    - apply IH; assumption. }
  split; [|split].
  - intros ydata yfit out E i y f HY HF. injection E as <-. apply V; assumption.
  - intros ydata yfit out E i y f HY HF. injection E as <-. exists (vsub y f). split.
    + clear V. revert yfit i HY HF. induction ydata as [|a l IH]; intros [|b m] [|i] HY HF; simpl in *; try discriminate.
      * injection HY as ->. injection HF as ->. reflexivity.
      * apply IH; assumption.
    + intros. apply V; assumption.
  - reflexivity.
Qed.
Print Assumptions C41_plain.
