(** Theorems C74: the attributes of a problem. *)
From Coq Require Import Reals List Arith Bool Lia Lra.
From Verif Require Import M_Errdis M_Attribs.
Import ListNotations.
Local Open Scope R_scope.

(** the sum of the weights, or the number of data *)
Definition total (y : list R) (w : option (list R)) : R := match w with Some w => Rsum w | None => INR (length y) end.

(** ** Sum of the weights *)
(** all but another number of data, and changes inside the array of weights *)
Definition whole (n : nat) (o : pop) : Prop := match o with SetY y => length y = n | PokeW _ _ => False | _ => True end.
Definition fresh (n : nat) (s : pstate) : Prop :=
  length (p_y s) = n /\ (p_cndata s = None \/ p_cndata s = Some n) /\ match p_csum s with Some v => exists w, p_w s = Some w /\ v = Rsum w | None => True end.

Lemma fresh_new n y w a m : length y = n -> fresh n (pnew y w a m).
Proof. intro L. repeat split; cbn; auto. Qed.
Lemma fresh_step n s o : fresh n s -> whole n o -> fresh n (pstep s o).
Proof.
  intros F0 W. destruct (F0) as (L & Cn & V). destruct o; cbn in *; try contradiction; try (repeat split; cbn; auto; fail).
  - unfold getNdata. destruct (p_cndata s) eqn:E; [exact F0|]. cbn. split; [exact L|]. split; [right; cbn; now rewrite L|exact V].
  - unfold getSum. destruct (p_csum s) as [v|] eqn:E; [exact F0|]. destruct (p_w s) as [w|] eqn:E2; cbn; [repeat split; cbn; eauto|].
    unfold getNdata. destruct (p_cndata s) eqn:E3; [exact F0|]. cbn. split; [exact L|]. split; [right; cbn; now rewrite L|]. cbn. now rewrite E.
Qed.
Lemma fresh_runs n l s : fresh n s -> Forall (whole n) l -> fresh n (pruns s l).
Proof. intros F W. revert s F. induction W as [|o l H W IH]; intros s F; [exact F|]. cbn. apply IH. now apply fresh_step. Qed.
Lemma fresh_get n s : fresh n s -> fst (getNdata s) = length (p_y s) /\ fst (getSum s) = total (p_y s) (p_w s).
Proof.
  intros (L & C & V). assert (N : fst (getNdata s) = length (p_y s)) by (unfold getNdata; destruct C as [-> | ->]; cbn; auto).
  split; [exact N|]. unfold getSum. destruct (p_csum s) as [v|]; [destruct V as (w & -> & ->); reflexivity|]. destruct (p_w s); [reflexivity|].
  unfold total. rewrite <- N. now destruct (getNdata s).
Qed.

(** Whatever is done with a problem in whatever order, as long as the number of data is not changed and no items inside the weights are,
    ndata is the number of data and sumweight the sum of the present weights. *)
Theorem C74_sumweight y w a m l s : Forall (whole (length y)) l -> s = pruns (pnew y w a m) l ->
  fst (getNdata s) = length (p_y s) /\ fst (getSum s) = total (p_y s) (p_w s).
Proof. intros W ->. apply (fresh_get (length y)). apply fresh_runs; [now apply fresh_new|exact W]. Qed.
Print Assumptions C74_sumweight.

(** Another number of data after ndata was used, is not seen: ndata keeps its value. *)
Theorem C74_ndata_refuted y y' w a m : length y <> length y' ->
  let s := pruns (pnew y w a m) [GetNdata; SetY y'] in fst (getNdata s) <> length (p_y s).
Proof. intros L s. cbn. exact L. Qed.
Print Assumptions C74_ndata_refuted.

(** Neither is a weight changed in place: sumweight stays as it was. *)
Theorem C74_poke_refuted y x r v a m : v <> x ->
  let s := pruns (pnew y (Some (x :: r)) a m) [GetSum; PokeW 0 v] in fst (getSum s) <> total (p_y s) (p_w s).
Proof. intros N s. cbn. lra. Qed.
Print Assumptions C74_poke_refuted.

(** A copy knows the data it has: whatever was done before, at first the right values are found. *)
Theorem C74_copy s : let c := pstep s Copy in
  fst (getNdata c) = length (p_y s) /\ fst (getSum c) = total (p_y s) (p_w s) /\
  p_y c = p_y s /\ p_w c = p_w s /\ p_acc c = p_acc s /\ p_accuracy c = p_accuracy s /\ p_varyy c = p_varyy s /\ p_model c = p_model s.
Proof. intro c. destruct (fresh_get (length (p_y c)) c) as [A B]; [repeat split; cbn; auto|]. repeat split; assumption. Qed.
Print Assumptions C74_copy.

(** ** Accuracy *)
Definition noassign (o : pop) : Prop := match o with AssignAcc _ => False | _ => True end.
(** the last accuracy that was set *)
Definition lastAcc (a : option R) (l : list pop) : option R := fold_left (fun a o => match o with SetAcc b => b | _ => a end) l a.

(** The accuracy is the last one that was set with setAccuracy, and the variance its square. *)
Theorem C74_accuracy y w a m l s : Forall noassign l -> s = pruns (pnew y w a m) l ->
  p_acc s = lastAcc a l /\ p_accuracy s = match lastAcc a l with Some v => v | None => 0 end /\ p_varyy s = p_accuracy s * p_accuracy s.
Proof.
  intros F ->. assert (G : forall s a, p_acc s = a -> p_accuracy s = match a with Some v => v | None => 0 end -> p_varyy s = p_accuracy s * p_accuracy s ->
    p_acc (pruns s l) = lastAcc a l /\ p_accuracy (pruns s l) = match lastAcc a l with Some v => v | None => 0 end /\ p_varyy (pruns s l) = p_accuracy (pruns s l) * p_accuracy (pruns s l)).
  { clear y w a m. induction F as [|o l H F IH]; intros s a A B C; [auto|]. unfold pruns, lastAcc. cbn [fold_left]. apply IH.
    - destruct o; cbn; try exact A; try reflexivity; try contradiction; unfold getSum, getNdata; destruct (p_csum s), (p_w s), (p_cndata s); exact A.
    - destruct o; cbn; try exact B; try reflexivity; try contradiction; unfold getSum, getNdata; destruct (p_csum s), (p_w s), (p_cndata s); exact B.
    - destruct o; cbn; try exact C; try reflexivity; try contradiction; unfold getSum, getNdata; destruct (p_csum s), (p_w s), (p_cndata s); exact C. }
  apply G; reflexivity.
Qed.
Print Assumptions C74_accuracy.

(** An accuracy assigned to the attribute is not seen by the variance, which is what the Gauss distribution uses. *)
Theorem C74_accuracy_refuted y w a m : a <> 0 -> let s := pruns (pnew y w None m) [AssignAcc a] in p_varyy s <> p_accuracy s * p_accuracy s /\ p_acc s = None.
Proof. intros H s. cbn. split; [nra|reflexivity]. Qed.
Print Assumptions C74_accuracy_refuted.

(** ** Periodic residuals *)
Definition keeps (o : pop) : Prop := match o with SetModel _ => False | _ => True end.
(** Residuals are corrected for the period of the model the problem was made with. *)
Theorem C74_cyclic y w a m l s r : Forall keeps l -> s = pruns (pnew y w a m) l ->
  corrects s r = match m with CNone => Some r | COne p => Some (cyclize p r) | CDict _ => None end.
Proof.
  intros F ->. assert (G : forall s, p_model s = m -> p_corr s = chooses m -> p_model (pruns s l) = m /\ p_corr (pruns s l) = chooses m).
  { clear y w a. induction F as [|o l H F IH]; intros s A B; [auto|]. unfold pruns. cbn [fold_left]. apply IH.
    - destruct o; cbn; try exact A; try contradiction; unfold getSum, getNdata; destruct (p_csum s), (p_w s), (p_cndata s); exact A.
    - destruct o; cbn; try exact B; try contradiction; [..|now rewrite A]; unfold getSum, getNdata; destruct (p_csum s), (p_w s), (p_cndata s); exact B. }
  destruct (G (pnew y w a m) eq_refl eq_refl) as [M K]. unfold corrects. rewrite M, K. now destruct m.
Qed.
Print Assumptions C74_cyclic.

(** With another model in the problem the correction stays the one for the first: none at all, or a failure; a copy of the problem has it right again. *)
Theorem C74_cyclic_refuted y w a p r :
  corrects (pruns (pnew y w a CNone) [SetModel (COne p)]) r = Some r /\
  corrects (pruns (pnew y w a (COne p)) [SetModel CNone]) r = None /\
  corrects (pruns (pnew y w a CNone) [SetModel (COne p); Copy]) r = Some (cyclize p r).
Proof. repeat split. Qed.
Print Assumptions C74_cyclic_refuted.

(** weights that change twice, with copies and accuracies in between *)
Example C74_example : let l := [GetSum; SetW (Some [2; 3]); GetSum; Copy; SetAcc (Some 5); SetW None; GetNdata; SetY [7; 8]; SetW (Some [1; 4])] in
  let s := pruns (pnew [1; 2] (Some [1; 1]) None (COne 3)) l in
  Forall (whole 2) l /\ Forall noassign l /\ Forall keeps l /\ fst (getSum s) = 5 /\ fst (getNdata s) = 2%nat /\ p_varyy s = 25.
Proof. cbv zeta. split; [repeat constructor|]. split; [repeat constructor|]. split; [repeat constructor|]. cbn. repeat split; lra. Qed.
