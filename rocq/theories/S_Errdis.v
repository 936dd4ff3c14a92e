(** What it means that the gradient of the log-likelihood is right. *)
From Coquelicot Require Import Coquelicot.
From Coq Require Import Reals List ZArith.
From Verif Require Import M_Order M_Errdis.
Import ListNotations.
Local Open Scope R_scope.

(** position of an index that may count from the end *)
Definition zidx (n : nat) (k : Z) : nat := if (0 <=? k)%Z then Z.to_nat k else Z.to_nat (Z.of_nat n + k).

(** the list with the item k (possibly counted from the end) replaced *)
Definition setz (l : list R) (k : Z) (t : R) : list R := upd (zidx (length l) k) t l.
Definition getz (l : list R) (k : Z) : R := nth (zidx (length l) k) l 0.

(** ** Hypotheses on the problem *)
Definition row_ok (p : problem) (par : list R) (r : row) : Prop :=
  forall k, (k < npars p)%nat -> is_derive (fun t => r_f r (upd k t par)) (nth k par 0) (r_df r par k).

(** a cyclic residual is not at the jump *)
Definition offcut (p : problem) (par : list R) (r : row) : Prop :=
  match period p with
  | None => True
  | Some q => 0 < q /\ r_y r - r_f r par <> - (q / 2) /\ r_y r - r_f r par <> q / 2
  end.

Definition val (o : option R) : R := match o with Some x => x | None => 0 end.

(** the gradient is right for the whole data set *)
Definition gradient_ok (e : errdis) (p : problem) (ap : list R) (fi : list Z) : Prop :=
  exists dL, partialLogL e p ap fi = Some dL /\ length dL = length fi /\
    (fi <> [] -> logLhood e p ap <> None) /\
    forall i k, nth_error fi i = Some k ->
      is_derive (fun t => val (logLhood e p (setz ap k t))) (getz ap k) (nth i dL 0).

