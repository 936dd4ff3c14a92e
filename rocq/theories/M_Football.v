(** FootballModel.py: results of football matches and their partials.  par: all parameters, complexity for each team.
    One match: k0 the team at home, k1 the one away (the numbers of the teams in xdata).  Floats are real numbers, parameters are such that
    no nan or inf comes up. *)
From Coq Require Import Reals List Arith.
From Verif Require Import M_Errdis.
Import ListNotations.
Local Open Scope R_scope.

(** goals1 (177-179) ... goals5 (214-234): strength of the home team, and that of the team away *)
Definition goals1 (par : nat -> R) (t0 t1 : nat) : R * R := (par t0, par t1).
Definition goals2 (par : nat -> R) (t0 t1 : nat) : R * R :=
  let k0 := (t0 * 2)%nat in let k1 := (t1 * 2)%nat in (par k0 * (1 - par (k1 + 1)%nat), par k1 * (1 - par (k0 + 1)%nat)).
Definition goals3 (par : nat -> R) (t0 t1 : nat) : R * R :=
  let k0 := (t0 * 3)%nat in let k1 := (t1 * 3)%nat in
  let ma0 := par (k0 + 2)%nat / par (k1 + 2)%nat in let md1 := ma0 in let ma1 := 1 / ma0 in let md0 := ma1 in
  (par k0 * sqrt ma0 * (1 - npow (par (k1 + 1)%nat) md1), par k1 * sqrt ma1 * (1 - npow (par (k0 + 1)%nat) md0)).
Definition goals4 (par : nat -> R) (t0 t1 : nat) : R * R :=
  let k0 := (t0 * 4)%nat in let k1 := (t1 * 4)%nat in
  let ma0 := (par (k0 + 2)%nat * par (k0 + 3)%nat) / par (k1 + 2)%nat in let md1 := ma0 in let ma1 := 1 / ma0 in let md0 := ma1 in
  (par k0 * sqrt ma0 * (1 - npow (par (k1 + 1)%nat) md1), par k1 * sqrt ma1 * (1 - npow (par (k0 + 1)%nat) md0)).
Definition goals5 (par : nat -> R) (t0 t1 : nat) : R * R :=
  let k0 := (t0 * 5)%nat in let k1 := (t1 * 5)%nat in
  let m0 := (par (k0 + 2)%nat * par (k0 + 3)%nat) / par (k1 + 2)%nat in let m1 := 1 / m0 in
  let ma0 := m0 * par (k0 + 4)%nat in let md0 := m1 * par (k0 + 4)%nat in
  let ma1 := m1 * par (k1 + 4)%nat in let md1 := m0 * par (k1 + 4)%nat in
  (par k0 * sqrt ma0 * (1 - npow (par (k1 + 1)%nat) md1), par k1 * sqrt ma1 * (1 - npow (par (k0 + 1)%nat) md0)).

(** a row of zeros in which items are set one after another; += on an item that is zero is the same *)
Definition row (l : list (nat * R)) (j : nat) : R := fold_left (fun v iv => if (fst iv =? j)%nat then snd iv else v) l 0.

(** part1 (290-300) ... part5 (464-519): phome and paway *)
Definition part1 (par : nat -> R) (t0 t1 : nat) : (nat -> R) * (nat -> R) := (row [(t0, 1)], row [(t1, 1)]).
Definition part2 (par : nat -> R) (t0 t1 : nat) : (nat -> R) * (nat -> R) :=
  let k0 := (t0 * 2)%nat in let k1 := (t1 * 2)%nat in
  (row [(k0, 1 - par (k1 + 1)%nat); ((k1 + 1)%nat, - par k0)], row [(k1, 1 - par (k0 + 1)%nat); ((k0 + 1)%nat, - par k1)]).
Definition part3 (par : nat -> R) (t0 t1 : nat) : (nat -> R) * (nat -> R) :=
  let k0 := (t0 * 3)%nat in let k1 := (t1 * 3)%nat in
  let a0 := par k0 in let a1 := par k1 in let b0 := par (k0 + 1)%nat in let b1 := par (k1 + 1)%nat in
  let c0 := par (k0 + 2)%nat in let c1 := par (k1 + 2)%nat in
  let m0 := c0 / c1 in let m1 := 1 / m0 in let sm0 := sqrt m0 in let sm1 := sqrt m1 in
  let pp0 := npow b0 m1 in let pp1 := npow b1 m0 in let lb0 := ln b0 in let lb1 := ln b1 in
  let pc0 := (pp0 - 1) * c0 in let pc1 := (pp1 - 1) * c1 in let pl0 := 2 * pp0 * lb0 * c1 in let pl1 := 2 * pp1 * lb1 * c0 in
  let sc0 := 2 * sm0 * c1 * c1 in let sc1 := 2 * sm1 * c0 * c0 in
  let apps0 := a0 * (pc1 + pl1) / sc0 in let apps1 := a1 * (pc0 + pl0) / sc1 in
  (row [(k0, sm0 * (1 - pp1)); ((k1 + 1)%nat, - a0 * sm0 * m0 * pp1 / b1); ((k0 + 2)%nat, - apps0); ((k1 + 2)%nat, apps0 * m0)],
   row [(k1, sm1 * (1 - pp0)); ((k0 + 1)%nat, - a1 * sm1 * m1 * pp0 / b0); ((k1 + 2)%nat, - apps1); ((k0 + 2)%nat, apps1 * m1)]).
Definition part4 (par : nat -> R) (t0 t1 : nat) : (nat -> R) * (nat -> R) :=
  let k0 := (t0 * 4)%nat in let k1 := (t1 * 4)%nat in
  let a0 := par k0 in let a1 := par k1 in let b0 := par (k0 + 1)%nat in let b1 := par (k1 + 1)%nat in
  let c0 := par (k0 + 2)%nat in let c1 := par (k1 + 2)%nat in let d0 := par (k0 + 3)%nat in
  let m0 := c0 * d0 / c1 in let m1 := 1 / m0 in let sm0 := sqrt m0 in let sm1 := sqrt m1 in
  let pp0 := npow b0 m1 in let pp1 := npow b1 m0 in let lb0 := ln b0 in let lb1 := ln b1 in
  let pc0 := (pp0 - 1) * c0 in let pc1 := (pp1 - 1) * c1 in let pl0 := 2 * pp0 * lb0 * c1 in let pl1 := 2 * pp1 * lb1 * c0 * d0 in
  let sc0 := 2 * sm0 * c1 * c1 in let sc1 := 2 * sm1 * c0 * c0 in let d02 := d0 * d0 in
  let apps0 := a0 * (pc1 + pl1) / sc0 in let apps1 := a1 * (pc0 * d0 + pl0) / sc1 in
  (row [(k0, sm0 * (1 - pp1)); ((k1 + 1)%nat, - a0 * sm0 * m0 * pp1 / b1); ((k0 + 2)%nat, - apps0 * d0); ((k1 + 2)%nat, apps0 * m0); ((k0 + 3)%nat, - apps0 * c0)],
   row [(k1, sm1 * (1 - pp0)); ((k0 + 1)%nat, - a1 * sm1 * m1 * pp0 / b0); ((k1 + 2)%nat, - apps1 / d02); ((k0 + 2)%nat, apps1 * m1 / d0); ((k0 + 3)%nat, apps1 * c1 / (d02 * d0))]).
Definition part5 (par : nat -> R) (t0 t1 : nat) : (nat -> R) * (nat -> R) :=
  let k0 := (t0 * 5)%nat in let k1 := (t1 * 5)%nat in
  let a0 := par k0 in let a1 := par k1 in let b0 := par (k0 + 1)%nat in let b1 := par (k1 + 1)%nat in
  let c0 := par (k0 + 2)%nat in let c1 := par (k1 + 2)%nat in let d0 := par (k0 + 3)%nat in let f0 := par (k0 + 4)%nat in let f1 := par (k1 + 4)%nat in
  let cd0 := c0 * d0 in let ma0 := cd0 * f0 / c1 in let ma1 := c1 * f1 / cd0 in let sm0 := sqrt ma0 in let sm1 := sqrt ma1 in
  let md0 := c1 * f0 / cd0 in let md1 := cd0 * f1 / c1 in
  let pp0 := npow b0 md0 in let pp1 := npow b1 md1 in let lb0 := ln b0 in let lb1 := ln b1 in let pb0 := pp0 - 1 in let pb1 := pp1 - 1 in
  (row [(k0, - sm0 * pb1); ((k1 + 1)%nat, - a0 * sm0 * md1 * pp1 / b1);
        ((k0 + 2)%nat, - (a0 * d0 * f0 * (2 * pp1 * lb1 * cd0 * f1 + pb1 * c1)) / (2 * c1 ^ 2 * sm0));
        ((k1 + 2)%nat, (a0 * cd0 * f0 * (pb1 * c1 + 2 * pp1 * lb1 * cd0 * f1)) / (2 * sm0 * c1 ^ 3));
        ((k0 + 3)%nat, - (a0 * c0 * f0 * (2 * pp1 * lb1 * cd0 * f1 + pb1 * c1)) / (2 * c1 ^ 2 * sm0));
        ((k0 + 4)%nat, - (a0 * pb1 * cd0) / (2 * c1 * sm0)); ((k1 + 4)%nat, - (a0 * pp1 * lb1 * cd0 * sm0) / c1)],
   row [(k1, - sm1 * pb0); ((k0 + 1)%nat, - a1 * sm1 * md0 * pp0 / b0);
        ((k1 + 2)%nat, - (a1 * f1 * (2 * pp0 * lb0 * f0 * c1 + pb0 * cd0)) / (2 * cd0 ^ 2 * sm1));
        ((k0 + 2)%nat, (a1 * c1 * f1 * (pb0 * cd0 + 2 * pp0 * lb0 * c1 * f0)) / (2 * cd0 ^ 2 * sm1 * c0));
        ((k0 + 3)%nat, (a1 * c1 * f1 * (pb0 * cd0 + 2 * pp0 * lb0 * c1 * f0)) / (2 * cd0 ^ 2 * sm1 * d0));
        ((k1 + 4)%nat, - (a1 * pb0 * c1) / (2 * cd0 * sm1)); ((k0 + 4)%nat, - (a1 * pp0 * lb0 * c1 * sm1) / cd0)]).

(** the attribute complexity (144-167), baseResult (251) and basePartial (286) *)
Definition goals (complexity : nat) : option ((nat -> R) -> nat -> nat -> R * R) :=
  match complexity with 1 => Some goals1 | 2 => Some goals2 | 3 => Some goals3 | 4 => Some goals4 | 5 => Some goals5 | _ => None end%nat.
Definition parts (complexity : nat) : option ((nat -> R) -> nat -> nat -> (nat -> R) * (nat -> R)) :=
  match complexity with 1 => Some part1 | 2 => Some part2 | 3 => Some part3 | 4 => Some part4 | 5 => Some part5 | _ => None end%nat.

(** basePartial (255-286) for a list of the free parameters of a model with npbase of them: the list is not used; an index of npbase or more: IndexError *)
Definition fixedPartial (complexity npbase : nat) (par : nat -> R) (t0 t1 : nat) (parlist : list nat) : option ((nat -> R) * (nat -> R)) :=
  match parts complexity with
  | Some f =>
    let top := if (complexity =? 4)%nat then Nat.max (t0 * 4 + 3) (t1 * 4 + 2) else (Nat.max t0 t1 * complexity + (complexity - 1))%nat in
    if (top <? npbase)%nat then Some (f par t0 t1) else None
  | None => None
  end.

(** getPrior (132-141), basePrior (BaseModel.py:369-385) of a list of priors *)
Definition ownPrior {P} (complexity : nat) (priors : list P) (d : P) (k : nat) : P :=
  let i := (k mod complexity)%nat in nth (Nat.min i (length priors - 1)) priors d.
