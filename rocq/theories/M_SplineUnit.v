(** Units of the parameters of a SplinesModel: SplinesModel.baseParameterUnit (SplinesModel.py:252-263).  A unit is the pair of powers of yUnit
    and xUnit, as in M_Units. *)
From Coq Require Import Arith ZArith.

(** SplinesModel.baseParameterUnit 252-263 *)
Definition splineUnit (order k : nat) : Z * Z :=
  let k := if Nat.ltb order k then order else k in (1, - Z.of_nat k)%Z.
