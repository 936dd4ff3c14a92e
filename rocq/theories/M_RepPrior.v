(** Model of the priors of RepeatingModels (RepeatingModel.py:154-186, 445-485) that repeat one and the same model: the first one and its copies.
    Python lists of priors are objects: h_lists is what is in them, by their address.  The repeated model is a single one with mnp parameters
    (setPrior, basePrior, hasLimits, hasPriors of BaseModel.py:304-356, 369-385, 432-450).  Simplified: fitindex of hasLimits is None. *)
From Coq Require Import List Arith Bool.
From Verif Require Import M_Order M_Repeat.
Import ListNotations.

Section Priors.
Context {P : Type}.
(** the attribute priors of the repeated model, and of each of the RepeatingModels *)
Record rworld := mkRW { h_lists : list (list P); inner : option nat; own : list (option nat) }.
Inductive rerr := IndexError | AttributeError.
Definition at_ (w : rworld) (a : option nat) : list P := match a with None => [] | Some a => nth a (h_lists w) [] end.

(** constructor (154-164) without a copy: self.priors = model.priors, the same list *)
Definition repMake (w : rworld) : rworld := mkRW (h_lists w) (inner w) (own w ++ [inner w]).
(** copy (184-186) of RepeatingModel number i: the same model; priors is a copy of the list of number i (BaseModel.py:126) *)
Definition repCopy (w : rworld) (i : nat) : rworld :=
  match nth i (own w) None with
  | None => mkRW (h_lists w) (inner w) (own w ++ [None])
  | Some a => mkRW (h_lists w ++ [nth a (h_lists w) []]) (inner w) (own w ++ [Some (length (h_lists w))])
  end.
(** BaseModel.basePrior (369-385) of the repeated model; None: IndexError, there are no priors *)
Definition inPrior (w : rworld) (k : nat) : option P :=
  let l := at_ w (inner w) in
  match length l with
  | 0 => None
  | S n => nth_error l (if k <? S n then k else n)
  end.
(** BaseModel.setPrior (304-344) of the repeated model.  make: how the prior to be set is made of the one that is there (333-336): the
    prior that was handed over, or a copy of what basePrior gives (a UniformPrior when there are none), with the attributes set *)
Definition inSet (w : rworld) (k : nat) (make : option P -> P) : rworld + rerr :=
  let l := at_ w (inner w) in
  let np := length l in
  if np <? k then inr IndexError else
  let p := make (inPrior w k) in
  if k =? np then inl (mkRW (h_lists w ++ [l ++ [p]]) (Some (length (h_lists w))) (own w))
  else match inner w with
       | None => inr AttributeError
       | Some a => inl (mkRW (upd a (upd k p l) (h_lists w)) (inner w) (own w))
       end.
(** setPrior (445-470) of any of the RepeatingModels; shortname does not exist *)
Definition repSet (mnp : nat) (w : rworld) (k : nat) (make : option P -> P) : rworld + rerr :=
  if k <? mnp then inSet w k make else inr AttributeError.
(** getPrior (Model.py:1023-1044, RepeatingModel.py:475-485) of a RepeatingModel for a parameter it has *)
Definition repGet (mnp : nat) (index : list nat) (w : rworld) (q : nat) : option P := inPrior w (fst (par2model mnp index q)).
(** hasLimits (BaseModel.py:432-441) of RepeatingModel number i, which has parameters; lim: hasLimits of the prior *)
Definition repHasLimits (lim : P -> bool) (w : rworld) (i : nat) : bool :=
  match nth i (own w) None with None => false | Some a => forallb lim (nth a (h_lists w) []) end.
(** hasPriors (472-473): that of the repeated model *)
Definition repHasPriors (bound : P -> bool) (w : rworld) : bool :=
  match inner w with None => false | Some a => forallb bound (nth a (h_lists w) []) end.
End Priors.
Arguments rworld : clear implicits.
