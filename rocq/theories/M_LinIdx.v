(** Model of the linear parameters of a non-linear model (NonLinearModel.py:62-112; the dummies of the other models Model.py:1303-1310;
    Model.getNumberOfParameters 961-963).  A model is its chain; every base model carries its own set of linear indices, and the methods
    act on the head of the chain.  A python set is a list of which only the members count. *)
From Coq Require Import ZArith List Bool.
Import ListNotations.

(** a base model: number of parameters, whether its class is a NonLinearModel, and its _linear *)
Record part := { pnp : nat; pnon : bool; plin : list Z }.
Definition chain := list part.
(** NonLinearModel.py:81-82: a new one *)
Definition newPart (np : nat) (non : bool) : part := {| pnp := np; pnon := non; plin := [] |}.
(** Model.py:961-963 *)
Definition nPars (m : chain) : nat := list_sum (map pnp m).
(** NonLinearModel.py:83-84: a copy has its own copy of the set; the set is copied in every member of the chain *)
Definition copyChain (m : chain) : chain := map (fun p => {| pnp := pnp p; pnon := pnon p; plin := if pnon p then plin p else [] |}) m.
(** Model.py:396-441: the appended model comes last; when it is a chain itself it is put in Brackets, a model of which all parameters are
    those of the chain (1721-1738), and that is no NonLinearModel *)
Definition append (m m' : chain) : chain := m ++ match m' with [p] => [p] | _ => [newPart (nPars m') false] end.
(** NonLinearModel.py:86-102; the head must be a NonLinearModel: otherwise there is no such method (None) *)
Definition setMixed (lindex : option (list Z)) (m : chain) : option chain :=
  match m with
  | [] => None
  | p :: r => if pnon p
              then Some ({| pnp := pnp p; pnon := true; plin := match lindex with None => [] | Some l => l end |} :: r)
              else None
  end.
(** NonLinearModel.py:104-106; Model.py:1304-1306 *)
Definition isMixed (m : chain) : bool :=
  match m with
  | [] => false
  | p :: _ => if pnon p then negb (Nat.eqb (length (plin p)) 0) else false
  end.
Definition inb (i : Z) (l : list Z) : bool := existsb (Z.eqb i) l.
(** NonLinearModel.py:108-112 *)
Definition nonLinear (m : chain) : option (list Z) :=
  match m with
  | [] => None
  | p :: _ => if pnon p then Some (filter (fun i => negb (inb i (plin p))) (map Z.of_nat (seq 0 (nPars m)))) else None
  end.
