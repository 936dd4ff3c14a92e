(** How the number of components of a dynamic model goes up and down: constructor and copy of RepeatingModel, HarmonicDynamicModel
    and PolynomialDynamicModel, the growth prior of Dynamic.setGrowPrior, and the test against it in BirthEngine, DeathEngine and
    StartEngine.  Simplified: only the settings that decide on the number of components are kept; the parameter lists are modelled in
    M_Dynamic.v, the likelihood test of the engines in M_Birth.v (here every proposal has a sufficient likelihood).  The random number
    of rng.rand() is a real in [0,1). *)
From Coquelicot Require Import Coquelicot.
From Coq Require Import List Arith Reals Bool.
From Verif Require Import M_Prior.
Import ListNotations.

Inductive dkind := Repeating | Harmonic | Polynomial.

(** size: ncomp, order or degree; min and max in the same unit; no growth prior: the model is not dynamic. *)
Record dyn := mkY { y_kind : dkind; y_size : nat; y_min : nat; y_max : option nat; y_grow : option prior }.

(** The attributes ncomp, minComp and maxComp (RepeatingModel.py:158-163; HarmonicDynamicModel.py:158-174;
    PolynomialDynamicModel.py:155-171). *)
Definition inComp (k : dkind) (n : nat) : nat := match k with Polynomial => S n | _ => n end.
Definition ncomp (m : dyn) : nat := inComp (y_kind m) (y_size m).
Definition minComp (m : dyn) : nat := inComp (y_kind m) (y_min m).
Definition maxComp (m : dyn) : option nat := option_map (inComp (y_kind m)) (y_max m).

(** Dynamic.setGrowPrior (Dynamic.py:67-92); RepeatingModel.py:174-182 has the same lines. *)
Definition growPrior (gp : option prior) (min : nat) (max : option nat) : option prior :=
  match gp with
  | Some p => Some p
  | None =>
      match max with
      | None => mkExponential 2 None
      | Some mx => mkPrior KUniform (Some (Some (INR min), Some (INR (mx + 1)))) None
      end
  end.

(** The check in the constructors: RepeatingModel.py:150-151, HarmonicDynamicModel.py:126-127, PolynomialDynamicModel.py:123-124 *)
Definition outside (size min : nat) (max : option nat) : bool :=
  (size <? min) || match max with Some mx => mx <? size | None => false end.

(** RepeatingModel.py:154, isDyna; the other two are always dynamic (HarmonicDynamicModel.py:146-147, PolynomialDynamicModel.py:143-144). *)
Definition isDyna (k : dkind) (dynamic : bool) (min : nat) (max : option nat) : bool :=
  match k with
  | Repeating => dynamic && match max with Some mx => min <? mx | None => true end
  | _ => true
  end.

(** The constructors without copy; None: ValueError. *)
Definition construct (k : dkind) (size min : nat) (max : option nat) (gp : option prior) (dynamic : bool) : option dyn :=
  if outside size min max then None
  else if isDyna k dynamic min max then
    match growPrior gp min max with
    | Some p => Some (mkY k size min max (Some p))
    | None => None
    end
  else Some (mkY k size min max None).

(** The default of the lowest size: RepeatingModel.py:114, HarmonicDynamicModel.py:92, PolynomialDynamicModel.py:94 *)
Definition defaultMin (k : dkind) : nat := match k with Harmonic => 1 | _ => 0 end.

(** copy (RepeatingModel.py:184-186, HarmonicDynamicModel.py:142-144, PolynomialDynamicModel.py:139-141): the constructor is called with
    the present size and the default limits; the limits and the growth prior are taken from the copied model thereafter.
    None: ValueError of the check, or AttributeError as there is no growth prior to copy (RepeatingModel.py:168). *)
Definition copy (m : dyn) : option dyn :=
  if outside (y_size m) (defaultMin (y_kind m)) None then None
  else match y_grow m with
       | None => None
       | Some p => Some (mkY (y_kind m) (y_size m) (y_min m) (y_max m) (Some p))
       end.

Definition draw (m : dyn) (u : R) : option R := match y_grow m with Some p => unit2Domain p u | None => None end.

(** BirthEngine.py:127-128 with Dynamic.py:147-148: a birth is tried and allowed. *)
Definition birthAllowed (m : dyn) (u : R) : bool :=
  match draw m u with
  | Some g => (if Rlt_dec (INR (ncomp m)) g then true else false)
              && match maxComp m with Some mx => ncomp m <? mx | None => true end
  | None => false
  end.
(** DeathEngine.py:130-131 with Dynamic.py:189-190 *)
Definition deathAllowed (m : dyn) (u : R) : bool :=
  match draw m u with
  | Some g => (if Rlt_dec g (INR (ncomp m)) then true else false) && (minComp m <? ncomp m)
  | None => false
  end.

(** changeNComp: RepeatingModel.py:188-189, HarmonicDynamicModel.py:149-150, PolynomialDynamicModel.py:146-147 *)
Definition resize (m : dyn) (n : nat) : dyn := mkY (y_kind m) n (y_min m) (y_max m) (y_grow m).
Definition born (m : dyn) (u : R) : dyn := if birthAllowed m u then resize m (y_size m + 1) else m.
Definition died (m : dyn) (u : R) : dyn := if deathAllowed m u then resize m (y_size m - 1) else m.

(** StartEngine.py:118-124: grow until a draw of the prior is not above the number of components; None: the list of draws is too short *)
Fixpoint startGrow (m : dyn) (us : list R) : option dyn :=
  match us with
  | [] => None
  | u :: us => if birthAllowed m u then startGrow (resize m (y_size m + 1)) us else Some m
  end.
