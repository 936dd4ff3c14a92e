(** Model of being dynamic or modifiable in a compound model: isDynamic (BaseModel.py:262-266, Model.py:995-1004, Dynamic.py:64-65,
    PolynomialDynamicModel.py:143-144, HarmonicDynamicModel.py:146-147, RepeatingModel.py:335-336), isModifiable (BaseModel.py:268-272,
    Modifiable.py:48-49), the check in Model.appendModel (Model.py:411-444), Problem.__init__ with copy (Problem.py:112-115), the engines
    of ClassicProblem and EvidenceProblem (ClassicProblem.py:126-138, EvidenceProblem.py:74-75, 91-104), and the search for the model to
    be changed in BirthEngine, DeathEngine, StartEngine and StructureEngine (BirthEngine.py:113-119, DeathEngine.py:115-118,
    StartEngine.py:108-112, StructureEngine.py:128-132).
    A model has a number of parameters, npbase, and a class; operations and dimensions are left out. *)
From Coq Require Import String List Arith Bool.
Import ListNotations.
Local Open Scope string_scope.
Local Open Scope list_scope.

Inductive mdl :=
| Plain (np : nat)                              (* neither Dynamic nor Modifiable *)
| Grows (np : nat)                              (* PolynomialDynamicModel, HarmonicDynamicModel *)
| Repeats (np : nat) (isDyna : bool)            (* RepeatingModel *)
| Varies (np : nat) (modifiable dynamic : bool) (* SplinesDynamicModel, DecisionTreeModel *)
| Brack (np : nat) (inner : list mdl).          (* Brackets, BracketModel *)
Definition npbase (m : mdl) : nat :=
  match m with Plain n | Grows n | Repeats n _ | Varies n _ _ | Brack n _ => n end.
(** isinstance( model, Dynamic ), isinstance( model, Modifiable ) *)
Definition isDynamicClass (m : mdl) : bool := match m with Grows _ | Repeats _ _ | Varies _ _ _ => true | _ => false end.
Definition isModifiableClass (m : mdl) : bool := match m with Varies _ _ _ => true | _ => false end.

(** A chain: the models linked by _next.  Plain and Brackets use Model.isDynamic, which asks the next one; the others do not *)
Fixpoint isDynamic (c : list mdl) : bool :=
  match c with
  | [] => false
  | Plain _ :: r | Brack _ _ :: r => isDynamic r
  | Grows _ :: _ => true
  | Repeats _ d :: _ => d
  | Varies _ _ d :: _ => d
  end.
(** There is no isModifiable in Model: the next one is not asked *)
Definition isModifiable (c : list mdl) : bool := match c with Varies _ m _ :: _ => m | _ => false end.

(** Model.appendModel 411-444; None: ValueError *)
Definition npchain (c : list mdl) : nat := list_sum (map npbase c).
Definition appendModel (c1 c2 : list mdl) : option (list mdl) :=
  if isDynamic c1 && isDynamic c2 then None
  else Some (c1 ++ match c2 with _ :: _ :: _ => [Brack (npchain c2) c2] | _ => c2 end).

(** ClassicProblem.myEngines *)
Definition classicEngines (c : list mdl) : list string :=
  ["galilean"; "chord"] ++ (if isDynamic c then ["birth"; "death"] else []) ++ (if isModifiable c then ["struct"] else []).
(** EvidenceProblem.__init__; None: ValueError.  EvidenceProblem.myEngines *)
Definition evidenceProblem (c : list mdl) : option (list mdl) := if isDynamic c || isModifiable c then Some c else None.
Definition evidenceEngines (c : list mdl) : list string :=
  (if isDynamic c then ["birth"; "death"] else []) ++ (if isModifiable c then ["struct"] else []).
(** Problem.__init__ 112-115: does a copy of the problem have a model of its own *)
Definition ownModel (c : list mdl) : bool := isDynamic c || isModifiable c.

(** The loop of the engines; None: the end was reached, model.ncomp raises AttributeError *)
Fixpoint search (cls : mdl -> bool) (off : nat) (c : list mdl) : option (nat * mdl) :=
  match c with
  | [] => None
  | m :: r => if cls m then Some (off, m) else search cls (off + npbase m) r
  end.
