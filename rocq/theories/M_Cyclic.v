(** Problem.residuals with cyclic results (Problem.py:118-123, 211-297). *)
From Coq Require Import Reals List.
From Verif Require Import M_Order.
Import ListNotations.
Local Open Scope R_scope.

(** cyclize of one residual (294-297): numpy.where works elementwise. *)
Definition cyc1 (period r : R) : R :=
  let hp := period / 2 in
  if Rlt_dec r (- hp) then r + period else if Rlt_dec hp r then r - period else r.

(** cyclize (271-297) of an array. *)
Definition cyclize (period : R) (res : list R) : list R := map (cyc1 period) res.

(** The attribute cyclic of the model: absent, a period, or a dictionary column -> period, in
    order of insertion (118-123).  The keys are the nonnegative columns. *)
Inductive cyclic := NoCyc | Cyc (period : R) | CycD (d : list (nat * R)).

(** cycor2 (255-269) on the rows of the residuals; None: IndexError for a column which is not there. *)
Fixpoint cyc_row (d : list (nat * R)) (row : list R) : option (list R) :=
  match d with
  | [] => Some row
  | (k, period) :: r =>
      match nth_error row k with
      | Some v => cyc_row r (upd k (cyc1 period v) row)
      | None => None
      end
  end.

Fixpoint sequence {A} (l : list (option A)) : option (list A) :=
  match l with
  | [] => Some []
  | Some a :: r => match sequence r with Some t => Some (a :: t) | None => None end
  | None :: _ => None
  end.

Definition cycor2 (d : list (nat * R)) (res : list (list R)) : option (list (list R)) := sequence (map (cyc_row d) res).

Definition vsub (a b : list R) : list R := map (fun p => fst p - snd p) (combine a b).

(** residuals (211-224) of a problem with one output: cyclicCorrection of ydata - result; a
    dictionary needs columns (IndexError). *)
Definition residuals (c : cyclic) (ydata yfit : list R) : option (list R) :=
  let res := vsub ydata yfit in
  match c with
  | NoCyc => Some res
  | Cyc p => Some (cyclize p res)
  | CycD [] => Some res
  | CycD _ => None
  end.

(** residuals of a problem with more outputs; rows are data points. *)
Definition residuals2 (c : cyclic) (ydata yfit : list (list R)) : option (list (list R)) :=
  let res := map (fun p => vsub (fst p) (snd p)) (combine ydata yfit) in
  match c with
  | NoCyc => Some res
  | Cyc p => Some (map (cyclize p) res)
  | CycD d => cycor2 d res
  end.
