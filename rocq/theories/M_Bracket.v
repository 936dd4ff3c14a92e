(** Model of the parameters that a compound model with brackets keeps: Brackets (Model.py:1728-1746), BracketModel (BracketModel.py:103-140),
    Model.__init__ with copy (Model.py:166-204), appendModel (Model.py:425-441), the operators (Model.py:1343-1488) and the assignment of
    parameters (Model.py:222-226).
    A compound model is the list of its models, its attribute parameters, and npchain; only the parameters of the head are used, a model inside has
    none.  Parameters are values here (how arrays are shared is in M_Isolate); operations and what the models calculate are in M_Chain. *)
From Coq Require Import List Arith ZArith Bool.
Import ListNotations.

(** A model with so many parameters (npbase), or brackets with npbase and the model inside *)
Inductive member := Leaf (np : nat) | Brk (np : nat) (c : chain)
with chain := Chain (ms : list member) (pars : list Z) (npc : nat).
Definition members (c : chain) : list member := let 'Chain ms _ _ := c in ms.
Definition pars (c : chain) : list Z := let 'Chain _ p _ := c in p.
Definition npchain (c : chain) : nat := let 'Chain _ _ n := c in n.
Definition npbase (m : member) : nat := match m with Leaf n | Brk n _ => n end.

(** A model of one: parameters given (Model.py:171-178) *)
Definition single (p : list Z) : chain := Chain [Leaf (length p)] p (length p).
(** BracketModel( model ): Model.py:1730-1733 *)
Definition bracket (c : chain) : chain := Chain [Brk (npchain c) c] (pars c) (npchain c).
(** appendModel 425-441 *)
Definition append (c1 c2 : chain) : chain :=
  let c2 := match members c2 with [_] => c2 | _ => bracket c2 end in
  Chain (members c1 ++ members c2) (pars c1 ++ pars c2) (length (pars c1) + length (pars c2)).
(** copy: every model is copied; the parameters are those of the original (196-197), but brackets at the head then have those of the model
    inside (Model.py:1733, 1746) *)
Fixpoint copy (c : chain) : chain :=
  let 'Chain ms p n := c in
  Chain (map (fun m => match m with Leaf k => Leaf k | Brk k c => Brk k (copy c) end) ms)
        (match ms with Brk _ c :: _ => pars (copy c) | _ => p end) n.
(** model1 + model2 and the like *)
Definition plus (c1 c2 : chain) : chain := append (copy c1) (copy c2).
(** model.parameters = p; None: ValueError *)
Definition assign (c : chain) (p : list Z) : option chain :=
  if length p =? npchain c then Some (Chain (members c) p (npchain c)) else None.
