(** Model of the attributes each parameter of a compound model has: priors and names
    (Model.py:1007-1120, 1133-1168, 1223-1300; BaseModel.py:304-398).
    [P] is the type of priors, [N] of names; None is an exception. *)
From Coq Require Import List Arith Bool.
Import ListNotations.

Section Attr.
Context {P N : Type}.

(** A base model: npbase, priors ([] stands for None), parNames. *)
Record leaf := mkLeaf { l_np : nat; l_priors : list P; l_names : list N }.

(** Sub-models in a chain: base models or Brackets holding a chain. *)
Inductive atree := ALeaf (l : leaf) | ABr (c : list atree).

Fixpoint anp (t : atree) : nat :=
  match t with ALeaf l => l_np l | ABr c => list_sum (map anp c) end.

(** BaseModel.basePrior (369-385). *)
Definition basePrior (l : leaf) (k : nat) : option P :=
  match l_priors l with
  | [] => None
  | p0 :: _ => if k <? length (l_priors l) then nth_error (l_priors l) k else Some (last (l_priors l) p0)
  end.

(** Walk to the sub-model that has parameter k: the common form of getPrior (1023-1041),
    getParameterName (1063-1081) and getParameterUnit. *)
Section Walk.
Context {A : Type} (f : atree -> nat -> option A).
Fixpoint walk (c : list atree) (k : nat) : option A :=
  match c with
  | [] => None
  | t :: r => if k <? anp t then f t k else walk r (k - anp t)
  end.
End Walk.

(** Sub-model's getPrior; Brackets.getPrior (1827-1835). *)
Fixpoint tgetPrior (t : atree) (k : nat) : option P :=
  match t with
  | ALeaf l => basePrior l k
  | ABr c => walk tgetPrior c k
  end.
Definition getPrior (c : list atree) (k : nat) : option P := walk tgetPrior c k.

(** baseParameterName (390-398) and Brackets.baseParameterName (1873-1881). *)
Fixpoint tgetName (t : atree) (k : nat) : option N :=
  match t with
  | ALeaf l => nth_error (l_names l) k
  | ABr c => walk tgetName c k
  end.
Definition getName (c : list atree) (k : nat) : option N := walk tgetName c k.

(** BaseModel.setPrior (304-344); the attributes passed to the prior are left out; without a
    prior it takes a copy of the present one, or [dflt] (UniformPrior). *)
Fixpoint replace (k : nat) (p : P) (l : list P) : list P :=
  match l, k with
  | [], _ => []
  | _ :: r, O => p :: r
  | a :: r, S k => a :: replace k p r
  end.

Definition baseSetPrior (dflt : P) (l : leaf) (k : nat) (prior : option P) : option leaf :=
  let np := length (l_priors l) in
  if np <? k then None
  else
    let p := match prior with
             | Some p => Some p
             | None => if np =? 0 then Some dflt else basePrior l k
             end in
    match p with
    | None => None
    | Some p =>
        Some {| l_np := l_np l; l_names := l_names l;
                l_priors := if k =? np then l_priors l ++ [p] else replace k p (l_priors l) |}
    end.

(** Model.setPrior (1043-1061), Brackets.setPrior (1813-1825). *)
Section WalkSet.
Context (f : atree -> nat -> option atree).
Fixpoint walkset (c : list atree) (k : nat) : option (list atree) :=
  match c with
  | [] => None
  | t :: r => if k <? anp t then option_map (fun t' => t' :: r) (f t k)
              else option_map (fun r' => t :: r') (walkset r (k - anp t))
  end.
End WalkSet.

Fixpoint tsetPrior (dflt : P) (prior : option P) (t : atree) (k : nat) : option atree :=
  match t with
  | ALeaf l => option_map ALeaf (baseSetPrior dflt l k prior)
  | ABr c => option_map ABr (walkset (tsetPrior dflt prior) c k)
  end.
Definition setPrior (dflt : P) (prior : option P) (c : list atree) (k : nat) : option (list atree) :=
  walkset (tsetPrior dflt prior) c k.

(** Model.hasPriors (1007-1021): in the loop over the links it asks the head every time.
    [bound] is isBound of a prior, asked for when isBound is set. *)
Definition baseHasPriors (bound : P -> bool) (isBound : bool) (l : leaf) : bool :=
  match l_priors l with [] => false | ps => negb isBound || forallb bound ps end.

Definition headHas (bound : P -> bool) (isBound : bool) (t : atree) : bool :=
  match t with ALeaf l => baseHasPriors bound isBound l | ABr _ => false end.

Definition hasPriors (bound : P -> bool) (isBound : bool) (c : list atree) : bool :=
  match c with
  | [] => true
  | h :: _ => fold_left (fun hasp _ => hasp && headHas bound isBound h) c true
  end.

(** Model.nextPrior (1289-1300): the first n priors the generator of a chain yields.  Brackets
    has no priors of its own (TypeError). *)
Fixpoint nextPrior (n : nat) (c : list atree) (k : nat) : option (list P) :=
  match n with
  | O => Some []
  | S n =>
      match c with
      | ALeaf l :: r =>
          match basePrior l k with
          | None => None
          | Some p =>
              let '(c', k') := if l_np l <=? S k then (r, 0) else (c, S k) in
              option_map (cons p) (nextPrior n c' k')
          end
      | _ => None
      end
  end.

(** Model.setLimits (1133-1168): the loop over k uses nl and nh, which are unbound (NameError)
    when only one of the limits is given.  Yields the parameters whose prior gets limits, with
    these limits. *)
Definition setLimits {V : Type} (lo hi : option (list V)) : option (list (nat * option V * option V)) :=
  match lo, hi with
  | None, None => Some []
  | Some l, Some h =>
      Some (map (fun k => (k, nth_error l k, nth_error h k)) (seq 0 (max (length l) (length h))))
  | Some l, None => if length l =? 0 then Some [] else None
  | None, Some h => if length h =? 0 then Some [] else None
  end.

End Attr.
Arguments leaf : clear implicits.
Arguments atree : clear implicits.
