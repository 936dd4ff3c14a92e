(** The repeating model as a function of its parameters: partials and derivative (RepeatingModel.basePartial 373-410, baseDerivative
    412-440), and which parameter of the encapsulated model belongs to a parameter (par2model 521-532; priors 475-485, names 491-503).
    Simplified: one value of x, so that a matrix of partials is one row; the result of the encapsulated model, its partials and its
    derivative are functions of its parameter list; a name "%s_%d" is the pair of name and number. *)
From Coq Require Import String List Arith Reals Bool.
From Verif Require Import M_Order M_Dynamic.
Import ListNotations.

(** partial[:,full] += v  (RepeatingModel.py:397): numpy reads all items first and then assigns them. *)
Definition addAt (partial : list R) (full : list nat) (v : list R) : list R :=
  assign partial full (map (fun kv => (nth (fst kv) partial 0 + snd kv)%R) (combine full v)).

(** the loop RepeatingModel.py:396-405; [g] self.model.partial, n components to go *)
Fixpoint repPartialLoop (g : list R -> list R) (index : list nat) (delta : nat) (n : nat) (ke : nat)
    (pars params : list R) (full : list nat) (partial : list R) : list R :=
  let partial := addAt partial full (g pars) in
  match n with
  | 0 => partial
  | S n' =>
      let ks := ke in
      let ke := ke + delta in
      let full := assign full index (seq ks delta) in
      let pars := assign pars index (firstn delta (skipn ks params)) in
      repPartialLoop g index delta n' ke pars params full partial
  end.

(** RepeatingModel.basePartial (373-410); [npbase] the number of parameters of the repeating model, mnp that of the model inside;
    None: IndexError of a parameter number in parlist that is too large. *)
Definition repPartial (g : list R -> list R) (npbase mnp : nat) (index : list nat) (ncomp : nat) (params : list R)
    (parlist : option (list nat)) : option (list R) :=
  let zero := repeat 0%R npbase in
  match ncomp with
  | 0 => Some zero                                       (* line 390: also with a parlist *)
  | S n =>
      let partial := repPartialLoop g index (length index) n mnp (firstn mnp params) params (seq 0 mnp) zero in
      match parlist with
      | None => Some partial
      | Some pl => if forallb (fun k => k <? npbase) pl then Some (map (fun k => nth k partial 0%R) pl) else None
      end
  end.

(** RepeatingModel.baseDerivative (412-440): the same loop as in baseResult with the derivative of the model inside. *)
Definition repDerivative (df : list R -> R) (mnp : nat) (index : list nat) (ncomp : nat) (params : list R) : R :=
  match ncomp with
  | 0 => 0%R
  | S n => rep_loop df index (length index) n mnp (firstn mnp params) params 0%R
  end.

(** RepeatingModel.par2model (521-532): the number in the model inside and the number of the component *)
Definition par2model (mnpchain : nat) (index : list nat) (k : nat) : nat * nat :=
  if mnpchain <=? k then
    let k := k - mnpchain in (nth (k mod length index) index 0, 1 + k / length index)
  else (k, 0).

(** RepeatingModel.basePrior (475-485) *)
Definition repPrior {P} (priorOf : nat -> P) (mnpchain : nat) (index : list nat) (k : nat) : P :=
  priorOf (fst (par2model mnpchain index k)).

(** RepeatingModel.baseParameterName (491-503); None: TypeError of "i not in None" *)
Definition repName (nameOf : nat -> string) (mnpchain : nat) (index : list nat) (same : option (list nat)) (k : nat)
    : option (string * option nat) :=
  let '(i, c) := par2model mnpchain index k in
  match same with
  | None => None
  | Some s => Some (nameOf i, if existsb (Nat.eqb i) s then None else Some c)
  end.

(** RepeatingModel.baseResult (339-371) with a model inside that may raise: it is compound, the head has mnp parameters and the whole
    mnpchain.  [f] the result for a list of mnpchain parameters; a shorter list gives an IndexError in one of the models of the chain. *)
Fixpoint repResultE (f : list R -> R) (mnpchain : nat) (index : list nat) (n : nat) (ke : nat) (pars params : list R) (result : R) : option R :=
  if List.length pars <? mnpchain then None
  else
    let result := (result + f pars)%R in
    match n with
    | 0 => Some result
    | S n' => repResultE f mnpchain index n' (ke + length index) (assign pars index (firstn (length index) (skipn ke params))) params result
    end.
Definition repBaseResult (f : list R -> R) (mnp mnpchain : nat) (index : list nat) (ncomp : nat) (params : list R) : option R :=
  match ncomp with
  | 0 => Some 0%R
  | S n => repResultE f mnpchain index n mnp (firstn mnp params) params 0%R
  end.
