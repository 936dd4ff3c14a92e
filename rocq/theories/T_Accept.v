(** C100: which data a fitter accepts.  C101: Tools.subclassof. *)
From Coq Require Import Reals List Arith Bool Lia Lra.
From Verif Require Import M_Accept.
Import ListNotations.
Local Open Scope R_scope.

Definition finite (l : list fl) : Prop := forall a, In a l -> exists r, a = Fin r.
Lemma finite_ok : forall l, forallb isfinite l = true <-> finite l.
Proof.
  intros l. rewrite forallb_forall. unfold finite. split; intros H a Ha; specialize (H a Ha).
  - destruct a; try discriminate. eexists. reflexivity.
  - destruct H as [r ->]. reflexivity.
Qed.
Definition positives (l : list fl) : Prop := forall a, In a l -> exists r, a = Fin r /\ 0 < r.
Lemma positive_ok : forall l, forallb isfinite l = true -> (forallb above l = true <-> positives l).
Proof.
  intros l F. rewrite forallb_forall in *. unfold positives. split; intros H a Ha; specialize (H a Ha); specialize (F a Ha).
  - destruct a as [r| | |]; try discriminate. exists r. split; [reflexivity|]. cbn in H. destruct (Rlt_dec 0 r); [assumption|discriminate].
  - destruct H as (r & -> & Hr). cbn. destruct (Rlt_dec 0 r); [reflexivity|contradiction].
Qed.
(** A fit goes on exactly when all data and weights are finite, and all accuracies are finite and positive, in a number or in an array *)
Theorem C100_accept : forall y w a s, fst (prolog y w a s) = Ok <->
  finite y /\ (forall l, w = Some l -> finite l) /\ (forall c, a = Some c -> positives (accList c) /\ forall l, c <> PyList l).
Proof.
  intros y w a s. assert (E : fst (prolog y w a s) = checkNan y w a) by (unfold prolog; destruct (checkNan y w a); reflexivity). rewrite E. clear E.
  unfold checkNan. rewrite <- finite_ok. destruct (forallb isfinite y); cbn [negb]; [|split; [discriminate|intros [A _]; discriminate]].
  assert (W : (forall l, w = Some l -> finite l) <-> match w with Some l => negb (forallb isfinite l) | None => false end = false).
  { destruct w as [l|]; split; intros H.
    - rewrite negb_false_iff. apply finite_ok, H. reflexivity.
    - intros l' X. injection X as <-. apply finite_ok. apply negb_false_iff. exact H.
    - reflexivity.
    - intros l X. discriminate. }
  rewrite W. destruct (match w with Some l => negb (forallb isfinite l) | None => false end); [split; [discriminate|intros (_ & A & _); discriminate]|].
  destruct a as [c|]; [|split; [intros _; repeat split; discriminate|reflexivity]].
  destruct (forallb isfinite (accList c)) eqn:F; cbn [negb].
  - assert (P := positive_ok _ F). destruct c as [c|l|l].
    + destruct (forallb above (accList (Number c))); split; intros H; try discriminate; try reflexivity.
      * repeat split; try (intros; discriminate); injection H0 as <-; [apply P; reflexivity|discriminate].
      * destruct H as (_ & _ & H). destruct (H _ eq_refl) as [H' _]. apply P in H'. discriminate.
    + destruct (forallb above (accList (Array l))); split; intros H; try discriminate; try reflexivity.
      * repeat split; try (intros; discriminate); injection H0 as <-; [apply P; reflexivity|discriminate].
      * destruct H as (_ & _ & H). destruct (H _ eq_refl) as [H' _]. apply P in H'. discriminate.
    + split; [discriminate|]. intros (_ & _ & H). destruct (H _ eq_refl) as [_ H']. exfalso. apply (H' l). reflexivity.
  - split; [discriminate|]. intros (_ & _ & H). destruct (H _ eq_refl) as [H' _].
    assert (F' : forallb isfinite (accList c) = true) by (apply finite_ok; intros x Hx; destruct (H' x Hx) as (r & -> & _); exists r; reflexivity).
    rewrite F' in F. discriminate.
Qed.
(** What is refused leaves the attributes of the fitter as they were; an iterative fitter only forgets its number of iterations *)
Theorem C100_refused : forall y w a s, fst (prolog y w a s) <> Ok ->
  snd (prolog y w a s) = s /\ f_weights (snd (iterProlog y w a s)) = f_weights s /\ f_accuracy (snd (iterProlog y w a s)) = f_accuracy s
  /\ f_fitWgts (snd (iterProlog y w a s)) = f_fitWgts s /\ f_sumwgt (snd (iterProlog y w a s)) = f_sumwgt s /\ f_iter (snd (iterProlog y w a s)) = 0%nat.
Proof.
  intros y w a s H. unfold iterProlog, prolog in *. destruct (checkNan y w a); [exfalso; apply H; reflexivity| |]; repeat split.
Qed.
Theorem C100_iterative : forall y w a s, fst (iterProlog y w a s) = fst (prolog y w a s) /\ f_iter (snd (iterProlog y w a s)) = 0%nat.
Proof. intros y w a s. unfold iterProlog, prolog. destruct (checkNan y w a); split; reflexivity. Qed.
(** NaN, infinities in data or weights, and non-positive accuracies are ValueErrors *)
Theorem C100_nan : forall y w a s, ~ finite y \/ (exists l, w = Some l /\ ~ finite l) -> fst (prolog y w a s) = ValueError.
Proof.
  intros y w a s H. assert (E : fst (prolog y w a s) = checkNan y w a) by (unfold prolog; destruct (checkNan y w a); reflexivity). rewrite E. clear E.
  unfold checkNan. destruct (forallb isfinite y) eqn:F; cbn [negb]; [|reflexivity]. destruct H as [H|(l & -> & H)].
  - exfalso. apply H. apply finite_ok. exact F.
  - destruct (forallb isfinite l) eqn:G; [|reflexivity]. exfalso. apply H, finite_ok, G.
Qed.
Theorem C100_accuracy : forall y w c s, finite y -> (forall l, w = Some l -> finite l) -> ~ positives (accList c) -> (forall l, c <> PyList l) ->
  fst (prolog y w (Some c) s) = ValueError.
Proof.
  intros y w c s Hy Hw Hc Hl. assert (E : fst (prolog y w (Some c) s) = checkNan y w (Some c)) by (unfold prolog; destruct (checkNan y w (Some c)); reflexivity).
  rewrite E. clear E. unfold checkNan. apply finite_ok in Hy. rewrite Hy. cbn [negb].
  assert (W : match w with Some l => negb (forallb isfinite l) | None => false end = false)
    by (destruct w as [l|]; [|reflexivity]; rewrite negb_false_iff; apply finite_ok, Hw; reflexivity).
  rewrite W. destruct (forallb isfinite (accList c)) eqn:F; cbn [negb]; [|reflexivity]. assert (P := positive_ok _ F).
  destruct (forallb above (accList c)) eqn:G; [exfalso; apply Hc, P; reflexivity|]. destruct c as [c|l|l]; try reflexivity.
  exfalso. apply (Hl l). reflexivity.
Qed.
(** The weight of a datum in the fit: w / a^2, where both default to 1 *)
Theorem C100_weights : forall y w a s i, fst (prolog y w a s) = Ok ->
  f_fitWgts (snd (prolog y w a s)) i = wgtAt w i / (accAt a i * accAt a i)
  /\ ((i < length y)%nat -> (forall l, a = Some (Array l) -> length l = length y) -> accAt a i > 0)
  /\ f_sumwgt (snd (prolog y None a s)) = INR (length y).
Proof.
  intros y w a s i H. assert (A := proj1 (C100_accept y w a s) H). destruct A as (Hy & Hw & Ha). split; [|split].
  - unfold prolog in *. destruct (checkNan y w a); [reflexivity| |]; discriminate.
  - intros Hi Hl. destruct a as [c|]; [|cbn; lra]. destruct (Ha c eq_refl) as [P N]. destruct c as [c|l|l]; cbn [accAt].
    + destruct (P c (or_introl eq_refl)) as (r & -> & Hr). exact Hr.
    + assert (L := Hl l eq_refl). rewrite (nth_indep _ 1 (real NaN)) by (rewrite map_length, L; exact Hi). rewrite map_nth.
      destruct (P (nth i l NaN)) as (r & E & Hr); [cbn [accList]; apply nth_In; lia|]. rewrite E. exact Hr.
    + exfalso. apply (N l). reflexivity.
  - assert (H' : fst (prolog y None a s) = Ok).
    { apply C100_accept. repeat split; [exact Hy|discriminate| |]; apply (Ha c H0). }
    unfold prolog in *. destruct (checkNan y None a); [reflexivity| |]; discriminate.
Qed.
(** In numbers: without weights and accuracy every datum counts as 1; with a number for the accuracy and weights as w / a^2 *)
Theorem C100_weight_values : forall y s i, finite y -> (i < length y)%nat ->
  f_fitWgts (snd (prolog y None None s)) i = 1
  /\ (forall a, 0 < a -> f_fitWgts (snd (prolog y None (Some (Number (Fin a))) s)) i = 1 / (a * a))
  /\ (forall ws, length ws = length y -> f_fitWgts (snd (prolog y (Some (map Fin ws)) None s)) i = nth i ws 0)
  /\ (forall ws as_, length ws = length y -> length as_ = length y -> (forall a, In a as_ -> 0 < a) ->
      f_fitWgts (snd (prolog y (Some (map Fin ws)) (Some (Array (map Fin as_))) s)) i = nth i ws 0 / (nth i as_ 1 * nth i as_ 1)).
Proof.
  intros y s i Hy Hi. assert (M : forall l, map real (map Fin l) = l) by (intros l; rewrite map_map; apply map_id).
  assert (W : forall l, finite (map Fin l)) by (intros l x Hx; apply in_map_iff in Hx; destruct Hx as (r & <- & _); exists r; reflexivity).
  split; [|split; [|split]].
  - rewrite (proj1 (C100_weights y None None s i ltac:(apply C100_accept; repeat split; [exact Hy|discriminate|discriminate|discriminate]))). cbn. lra.
  - intros a Ha. rewrite (proj1 (C100_weights y None (Some (Number (Fin a))) s i ltac:(apply C100_accept; split; [exact Hy|]; split; [discriminate|]; intros c X; injection X as <-; split; [intros x [<-|[]]; exists a; split; [reflexivity|exact Ha]|discriminate]))). reflexivity.
  - intros ws Hl. rewrite (proj1 (C100_weights y (Some (map Fin ws)) None s i ltac:(apply C100_accept; split; [exact Hy|]; split; [intros l X; injection X as <-; apply W|discriminate]))).
    cbn [wgtAt accAt]. rewrite M. field.
  - intros ws l Hl Ha P. rewrite (proj1 (C100_weights y (Some (map Fin ws)) (Some (Array (map Fin l))) s i ltac:(apply C100_accept; split; [exact Hy|]; split; [intros u X; injection X as <-; apply W|]; intros c X; injection X as <-; split; [intros x Hx; apply in_map_iff in Hx; destruct Hx as (r & <- & Hr); exists r; split; [reflexivity|apply P; exact Hr]|discriminate]))).
    cbn [wgtAt accAt]. rewrite !M. reflexivity.
Qed.
(** The accuracy may be given as array_like, says the documentation, but a list of them, all positive, is a TypeError. *)
Theorem C100_list_refuted : forall y l s, finite y -> positives l -> fst (prolog y None (Some (PyList l)) s) = TypeError.
Proof.
  intros y l s Hy Hl. unfold prolog, checkNan. apply finite_ok in Hy. rewrite Hy. cbn [negb accList].
  assert (F : forallb isfinite l = true) by (apply finite_ok; intros x Hx; destruct (Hl x Hx) as (r & -> & _); exists r; reflexivity).
  rewrite F. reflexivity.
Qed.
(** Weights are not checked for their sign: with negative ones the fit goes on, with a negative weight for the datum. *)
Theorem C100_negative_refuted : forall y r s, finite y -> r < 0 ->
  fst (prolog y (Some (repeat (Fin r) (length y))) None s) = Ok
  /\ forall i, (i < length y)%nat -> f_fitWgts (snd (prolog y (Some (repeat (Fin r) (length y))) None s)) i < 0.
Proof.
  intros y r s Hy Hr. assert (A : fst (prolog y (Some (repeat (Fin r) (length y))) None s) = Ok).
  { apply C100_accept. split; [exact Hy|]. split; [|discriminate]. intros l X. injection X as <-. intros a Ha. apply repeat_spec in Ha. subst a. eexists. reflexivity. }
  split; [exact A|]. intros i Hi. destruct (C100_weights _ _ _ s i A) as [E _]. rewrite E. cbn [wgtAt accAt].
  rewrite (nth_indep _ 0 (real (Fin 0))) by (rewrite map_length, repeat_length; exact Hi). rewrite map_nth.
  assert (X : nth i (repeat (Fin r) (length y)) (Fin 0) = Fin r) by (apply (repeat_spec (length y)), nth_In; rewrite repeat_length; exact Hi).
  rewrite X. cbn [real]. lra.
Qed.

Example C100_ex : fst (prolog [Fin 1; Fin 2] (Some [Fin 1; Fin 0]) (Some (Array [Fin 1; Fin 2])) (mkF None None (fun _ => 0) 0 7)) = Ok
  /\ fst (prolog [Fin 1; NaN] None None (mkF None None (fun _ => 0) 0 7)) = ValueError
  /\ fst (prolog [Fin 1; Fin 2] None (Some (Number (Fin 0))) (mkF None None (fun _ => 0) 0 7)) = ValueError
  /\ fst (prolog [Fin 1; Fin 2] None (Some (PyList [Fin 1; Fin 1])) (mkF None None (fun _ => 0) 0 7)) = TypeError.
Proof.
  unfold prolog, checkNan. cbn [forallb isfinite negb andb accList above]. destruct (Rlt_dec 0 1); [|lra]. destruct (Rlt_dec 0 2); [|lra]. destruct (Rlt_dec 0 0); [lra|]. repeat split.
Qed.

(** ** C101 *)
Section Tree.
Context (bases : nat -> list nat).
Inductive inherits : nat -> nat -> Prop :=
| inh_self : forall c, inherits c c
| inh_base : forall c b d, In b (bases c) -> inherits b d -> inherits c d.
(** bases are found in at most that many steps *)
Inductive depth : nat -> nat -> Prop :=
| depth_S : forall n c, (forall b, In b (bases c) -> depth n b) -> depth (S n) c.

Lemma first_in : forall c b, firstBase bases c = Some b -> In b (bases c).
Proof.
  intros c b H. unfold firstBase in H. destruct (bases c) as [|x l]; [discriminate|]. injection H as <-.
  revert x. induction l as [|y l IH]; intros x; [left; reflexivity|]. cbn [fold_left].
  destruct (IH (Nat.min x y)) as [E|E].
  - rewrite <- E. destruct (Nat.min_spec x y) as [[_ M]|[_ M]]; rewrite M; [left|right; left]; reflexivity.
  - right; right. exact E.
Qed.
(** True is always right *)
Theorem C101_sound : forall fuel k sub cls, subclassof bases fuel k sub cls = true -> k = true /\ inherits sub cls.
Proof.
  intros fuel k sub cls H. unfold subclassof in H. destruct k; [|discriminate]. split; [reflexivity|]. cbn [negb] in H.
  revert sub H. induction fuel as [|f IH]; intros sub H; [discriminate|]. cbn [climb] in H. destruct (Nat.eqb_spec sub cls) as [Es|]; [rewrite Es; constructor|].
  destruct (firstBase bases sub) as [b|] eqn:E; [|discriminate]. apply inh_base with b; [apply first_in, E|apply IH, H].
Qed.
(** When no class on the way has more than one base, false is right too *)
Theorem C101_single : forall n sub cls, depth n sub -> (forall c, inherits sub c -> (length (bases c) <= 1)%nat) ->
  subclassof bases n true sub cls = true <-> inherits sub cls.
Proof.
  intros n sub cls D S. split; [intros H; apply C101_sound in H; tauto|]. intros H. unfold subclassof. cbn [negb].
  revert n D S. induction H as [c|c b d Hb H IH]; intros n D S; inversion D as [n' c' Db]; subst; cbn [climb].
  - rewrite Nat.eqb_refl. reflexivity.
  - destruct (Nat.eqb_spec c d); [reflexivity|].
    assert (L := S c (inh_self c)). unfold firstBase. destruct (bases c) as [|x [|y l]] eqn:E; [destruct Hb| |cbn in L; lia].
    destruct Hb as [->|[]]. cbn [fold_left]. apply IH; [apply Db; left; reflexivity|]. intros e He. apply S. apply inh_base with b; [rewrite E; left; reflexivity|exact He].
Qed.
(** What is not a class is no subclass *)
Theorem C101_noclass : forall fuel sub cls, subclassof bases fuel false sub cls = false.
Proof. reflexivity. Qed.
End Tree.
Definition exTree (c : nat) : list nat :=      (* 0 object, 1 Dynamic, 2 Model, 3 PolynomialModel, 4 PolynomialDynamicModel *)
  match c with 1 => [0] | 2 => [0] | 3 => [2] | 4 => [3; 1] | _ => [] end%nat.
(** With two bases only the one that is first in the alphabet is looked at: PolynomialDynamicModel( PolynomialModel, Dynamic ) is no
    subclass of PolynomialModel, nor of Model. *)
Theorem C101_multiple_refuted : inherits exTree 4 3 /\ inherits exTree 4 2 /\ depth exTree 5 4 /\
  (forall fuel, subclassof exTree fuel true 4 3 = false) /\ (forall fuel, subclassof exTree fuel true 4 2 = false).
Proof.
  assert (H3 : inherits exTree 4 3) by (apply inh_base with 3%nat; [left; reflexivity|constructor]).
  assert (H2 : inherits exTree 4 2) by (apply inh_base with 3%nat; [left; reflexivity|apply inh_base with 2%nat; [left; reflexivity|constructor]]).
  split; [exact H3|]. split; [exact H2|]. split; [|split].
  - assert (D0 : forall n, depth exTree (S n) 0) by (intros; constructor; intros b []).
    assert (D1 : forall n, depth exTree (S (S n)) 1) by (intros; constructor; intros b [<-|[]]; apply D0).
    assert (D2 : forall n, depth exTree (S (S n)) 2) by (intros; constructor; intros b [<-|[]]; apply D0).
    constructor. intros b1 [<-|[<-|[]]]; [|apply D1]. constructor. intros b2 [<-|[]]. apply D2.
  - intros [|[|[|[|f]]]]; reflexivity.
  - intros [|[|[|[|f]]]]; reflexivity.
Qed.
Example C101_ex : depth exTree 4 3 /\ (forall c, inherits exTree 3 c -> (length (exTree c) <= 1)%nat) /\ subclassof exTree 4 true 3 2 = true
  /\ subclassof exTree 5 true 4 1 = true.
Proof.
  split; [|split; [|split; reflexivity]].
  - constructor; intros b [<-|[]]. constructor; intros b [<-|[]]. constructor; intros b [].
  - intros c H. remember 3%nat as s eqn:E. assert (G : forall a d, inherits exTree a d -> (a < 4)%nat -> (d < 4)%nat).
    { intros a d I. induction I as [e|e b d Hb I IH]; intros L; [exact L|]. apply IH. destruct e as [|[|[|[|e]]]]; [destruct Hb| | | |lia]; destruct Hb as [<-|[]]; lia. }
    assert (L := G _ _ H ltac:(lia)). destruct c as [|[|[|[|c]]]]; cbn; lia.
Qed.

Print Assumptions C100_accept.
Print Assumptions C100_weights.
Print Assumptions C100_weight_values.
Print Assumptions C101_single.
