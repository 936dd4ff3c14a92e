(** PolySurfaceModel (PolySurfaceModel.py:74-269) with LinearModel.baseResult, for one data point (x,y), in real numbers.
    Repeated multiplication of an array is a power.  Left out: parlist (a selection of columns) and fixed parameters. *)
From Coq Require Import List Arith ZArith Reals Bool.
Import ListNotations.
Local Open Scope R_scope.

(** 101: number of parameters *)
Definition npars (degree : nat) : nat := ((degree + 2) * (degree + 1) / 2)%nat.

(** basePartial (142-155): one turn of the loop, columns n to n + d *)
Definition prow (d : nat) (x y : R) : list R := map (fun i => y ^ i * x ^ (d - i)) (seq 0 (S d)).
Definition basePartial (degree : nat) (x y : R) : list R := concat (map (fun d => prow d x y) (seq 0 (S degree))).

(** LinearModel.baseResult (LinearModel.py:91-115) *)
Definition baseResult (degree : nat) (x y : R) (params : list R) : R :=
  fold_right Rplus 0 (map (fun pq => fst pq * snd pq) (combine params (basePartial degree x y))).

(** 192-201: index and factor; fuel for the while loop *)
Fixpoint xloop (fuel k n np : nat) : list (nat * nat) :=
  match fuel with
  | O => []
  | S f => if (k <? np)%nat then map (fun i => (k + i, n - i)%nat) (seq 0 n) ++ xloop f (k + (n + 1)) (n + 1) np else []
  end.
(** 208-217 *)
Fixpoint yloop (fuel k n np : nat) : list (nat * nat) :=
  match fuel with
  | O => []
  | S f => if (k <? np)%nat then map (fun i => (k + i, i + 1)%nat) (seq 0 n) ++ yloop f (k + (n + 1)) (n + 1) np else []
  end.

(** 225, 230 *)
Definition pick (params : list R) (idx : list (nat * nat)) : list R := map (fun kf => nth (fst kf) params 0 * INR (snd kf)) idx.

(** baseDerivative (161-233) *)
Definition baseDerivative (degree : nat) (x y : R) (params : list R) : R * R :=
  let np := npars degree in
  if (np <=? 1)%nat then (0, 0)
  else (baseResult (degree - 1) x y (pick params (xloop np 1 1 np)),
        baseResult (degree - 1) x y (pick params (yloop np 2 1 np))).

(** baseName (236-257): the terms, as (number of the parameter, power of x, power of y) *)
Definition nrow (d n : nat) : list (nat * nat * nat) := map (fun k => (n + k, d - k, k)%nat) (seq 0 (S d)).
Fixpoint nloop (cnt d n : nat) : list (nat * nat * nat) :=
  match cnt with O => [] | S c => nrow d n ++ nloop c (S d) (n + S d) end.
Definition baseName (degree : nat) : list (nat * nat * nat) := nloop (S degree) 0 0.

(** baseParameterUnit (259-269): yUnit divided by these powers of xUnit[0] and xUnit[1] *)
Fixpoint uloop (fuel k dk : nat) : nat * nat :=
  match fuel with
  | O => (k, dk)
  | S f => if (dk <? k)%nat then uloop f (k - (dk + 1)) (dk + 1) else (k, dk)
  end.
Definition baseParameterUnit (k : nat) : nat * nat := let (k, dk) := uloop k k 0 in (k, dk - k)%nat.
