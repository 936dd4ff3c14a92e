(** SplinesModel (SplinesModel.py:142-245) with LinearModel.baseResult (LinearModel.py:91-115), in real
    numbers.  A row of the matrix of partials is a function of the column.  Left out: parlist (a selection of
    columns), fixed parameters, the making of knots out of a range. *)
From Coq Require Import List Arith ZArith Reals Bool.
From Verif Require Import L_Sum.
Import ListNotations.
Local Open Scope R_scope.

(** 153: npar; the order is an integer: the derivative of order 0 asks for a model of order -1. *)
Definition npar (order : Z) (knots : list R) : Z := (order + Z.of_nat (length knots) - 1)%Z.

(** One data point: xdata, x, whether its index is in ki, its row of partial. *)
Record drow := mkRow { r_x : R; r_pow : R; r_on : bool; r_row : nat -> R }.

(** Column i; negative ones count from the end. *)
Definition col (np i : Z) : nat := Z.to_nat (if (i <? 0)%Z then np + i else i)%Z.
Definition put (r : nat -> R) (i : nat) (v : R) : nat -> R := fun k => if (k =? i)%nat then v else r k.

(** 197-206; range( order ) is empty when order is negative *)
Definition start (order : Z) (x : R) : drow :=
  mkRow x (x ^ Z.to_nat order) true (fun k => if (k <? Z.to_nat order)%nat then x ^ k else 0).

(** 208, 221 *)
Definition fill (np i : Z) (r : drow) : drow :=
  if r_on r then mkRow (r_x r) (r_pow r) true (put (r_row r) (col np i) (r_pow r)) else r.

(** 210-219, for one data point *)
Definition past (kn : R) (r : drow) : bool := if Rle_dec kn (r_x r) then true else false.
Definition knot (order np i : Z) (kn : R) (r : drow) : drow :=
  if past kn r then
    let t := (r_x r - kn) ^ Z.to_nat order in
    mkRow (r_x r) t true (put (r_row r) (col np i) (r_row r (col np i) - t))
  else mkRow (r_x r) (r_pow r) false (r_row r).

(** 207-221; the loop is done once for each of the internal knots; when no point is beyond a knot it breaks
    and 221 does nothing *)
Fixpoint columns (n : nat) (order np : Z) (knots : list R) (i : Z) (rs : list drow) : list drow :=
  match n with
  | O => map (fill np i) rs
  | S n =>
      let kn := nth (Z.to_nat (i - (order - 1))) knots 0 in
      let rs := map (fill np i) rs in
      if existsb (past kn) rs then columns n order np knots (i + 1) (map (knot order np i kn) rs) else rs
  end.

(** basePartial (179-226).  With less than two knots, or without columns, 221 raises an IndexError: None. *)
Definition basePartial (order : Z) (knots : list R) (xs : list R) : option (list (nat -> R)) :=
  let np := npar order knots in
  if (length knots <? 2)%nat || (np <? 1)%Z then None
  else Some (map r_row (columns (length knots - 2) order np knots order (map (start order) xs))).

(** LinearModel.baseResult (91-115); params as many as there are columns *)
Definition baseResult (order : Z) (knots : list R) (xs : list R) (params : nat -> R) : option (list R) :=
  match basePartial order knots xs with
  | None => None
  | Some rows => Some (map (fun r => sum (Z.to_nat (npar order knots)) (fun k => params k * r k)) rows)
  end.

(** baseDerivative (229-245) *)
Definition factor (order : Z) (k : nat) : R := if (Z.of_nat k <=? order)%Z then INR k else 3.
Definition baseDerivative (order : Z) (knots : list R) (xs : list R) (params : nat -> R) : option (list R) :=
  baseResult (order - 1) knots xs (fun k => params (S k) * factor order (S k)).
