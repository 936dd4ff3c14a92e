(** Model of the numerical derivatives and of the checks made with them: Tools.makeNext (Tools.py:253-268),
    Model.strictNumericPartial (Model.py:1619-1658), strictNumericDerivative (Model.py:1674-1708), testPartial (Model.py:1491-1617),
    ErrorDistribution.numPartialLogL (ErrorDistribution.py:432-459), Prior.numPartialDomain2Unit and numPartialLog
    (Prior.py:480-518), hasLimits (BaseModel.py:432-449, Model.py:1197-1216).
    Numbers are reals; models with one output.  None is any exception. *)
From Coq Require Import Reals List ZArith Bool Arith.
From Verif Require Import M_Order.
Import ListNotations.
Local Open Scope R_scope.

(** makeNext( x, k ) of a list x: what the generator yields the i-th time (i from 0); from an exhausted list the last item.
    The state of the generator is k and _xnext *)
Definition nextItem (x : list R) (st : nat * R) : R * (nat * R) :=
  let '(k, xn) := st in
  match nth_error x k with
  | Some v => (v, (S k, v))
  | None => (xn, (k, xn))
  end.
Fixpoint yields (x : list R) (n : nat) (st : nat * R) : list R :=
  match n with
  | O => []
  | S m => let '(v, st') := nextItem x st in v :: yields x m st'
  end.
(** The first n items; the first _xnext is x[-1] *)
Definition makeNext (x : list R) (k n : nat) : list R := yields x n (k, last x 0).

Section Result.
  Context {X : Type}.
  Variable f : list R -> X -> R.         (* self.result, for one item of xdata *)

  (** The loop 1648-1656 over the parameters; par is changed and restored *)
  Fixpoint partialLoop (xs : list X) (params : list R) (todo : list (nat * R)) (par : list R) : option (list (list R)) :=
    match todo with
    | [] => Some []
    | (k, dp) :: r =>
        if (k <? length par)%nat then
          let p1 := upd k (nth k par 0 + 0.5 * dp) par in
          let r1 := map (f p1) xs in
          let p2 := upd k (nth k p1 0 - dp) p1 in
          let r2 := map (f p2) xs in
          let col := map (fun ab => (fst ab - snd ab) / dp) (combine r1 r2) in
          match partialLoop xs params r (upd k (nth k params 0) p2) with
          | None => None
          | Some cs => Some (col :: cs)
          end
        else None
    end.
  (** strictNumericPartial: the columns; the array has npars of them, filled from the left *)
  Definition strictNumericPartial (deltaP : list R) (npars : nat) (xs : list X) (params : list R) (parlist : option (list nat))
    : option (list (list R)) :=
    let pl := match parlist with Some l => l | None => seq 0 npars end in
    match partialLoop xs params (combine pl (makeNext deltaP 0 (length pl))) params with
    | None => None
    | Some cs => if (length cs <=? npars)%nat then Some (cs ++ repeat (map (fun _ => 0) xs) (npars - length cs)) else None
    end.
End Result.

(** strictNumericDerivative, one dimension *)
Definition strictDerivative1 (f : R -> R) (deltaP : list R) (xs : list R) : list R :=
  let dx := hd 0 deltaP in map (fun x => (f (x + dx) - f (x - dx)) / (2 * dx)) xs.
(** ... more dimensions: x is a copy of xdata, x[:,i] += dx, then -= 2 * dx.  The columns *)
Definition strictDerivative (f : list R -> R) (deltaP : list R) (ndim : nat) (xs : list (list R)) : list (list R) :=
  let dx := hd 0 deltaP in
  map (fun i => map (fun x => let x1 := upd i (nth i x 0 + dx) x in let x2 := upd i (nth i x1 0 - 2 * dx) x1 in (f x1 - f x2) / (2 * dx)) xs) (seq 0 ndim).

(** testPartial: the deviations of two arrays, 1559-1561 and 1581-1583 *)
Definition deviates (a b : R) : bool := if Rgt_dec (Rabs (a - b)) (0.001 * Rmax (Rabs (a + b)) 1) then true else false.
Definition deviations (a b : list R) : nat := length (filter (fun p => deviates (fst p) (snd p)) (combine a b)).
(** What it returns for n points: all items are counted again for every point that is looked at, at most 10 of them.
    df, partial (flattened): None when they are not there or raise; then the numerical ones are taken *)
Definition testPartial (n : nat) (df partial : option (list R)) (snum snmp : list R) : nat :=
  let d := match df with Some d => d | None => snum end in
  let p := match partial with Some p => p | None => snmp end in
  fold_left (fun kerr _ => kerr + deviations d snum + deviations p snmp)%nat (seq 0 (Nat.min n 10)) 0%nat.

(** numPartialLogL; an index below 0 counts from the end *)
Definition pyidx (n : nat) (k : Z) : option nat :=
  if (k <? 0)%Z then if (0 <=? Z.of_nat n + k)%Z then Some (Z.to_nat (Z.of_nat n + k)) else None
  else if (k <? Z.of_nat n)%Z then Some (Z.to_nat k) else None.
Fixpoint numLoop (logL : list R -> R) (d : R) (allpars : list R) (fitIndex : list Z) (p : list R) : option (list R) :=
  match fitIndex with
  | [] => Some []
  | k :: r =>
      match pyidx (length allpars) k with
      | None => None
      | Some i =>
          let p1 := upd i (nth i allpars 0 - d) p in
          let lm := logL p1 in
          let p2 := upd i (nth i allpars 0 + d) p1 in
          let lp := logL p2 in
          match numLoop logL d allpars r (upd i (nth i allpars 0) p2) with
          | None => None
          | Some l => Some (0.5 * (lp - lm) / d :: l)
          end
      end
  end.
Definition numPartialLogL (logL : list R -> R) (d : R) (allpars : list R) (fitIndex : list Z) : option (list R) :=
  numLoop logL d allpars fitIndex allpars.

(** Prior.numPartialDomain2Unit, numPartialLog (None is NaN) *)
Definition numPartialDomain2Unit (d2u : R -> R) (d dval : R) : R := (d2u (dval + d) - d2u (dval - d)) / (2 * d).
Definition numPartialLog (outOfLimits : R -> bool) (logResult : R -> R) (d p : R) : option R :=
  if outOfLimits p then None else Some ((logResult (p + d) - logResult (p - d)) / (2 * d)).

(** hasLimits of a base model with npbase parameters; priors: None, or for each whether it has limits.
    fitIndex: None, a list or an array *)
Inductive answer : Type := Yes | No | Error.
Fixpoint baseFit (priors : list bool) (fit : list Z) (haslim : bool) : answer :=
  match fit with
  | [] => if haslim then Yes else No
  | k :: r =>
      if (Z.of_nat (length priors) <=? k)%Z then (if haslim then Yes else No)
      else if haslim then
             match pyidx (length priors) k with
             | None => Error                                        (* IndexError *)
             | Some i => baseFit priors r (nth i priors false)
             end
           else baseFit priors r false
  end.
Definition baseHasLimits (npbase : nat) (priors : option (list bool)) (fit : option (list Z)) : answer :=
  if (npbase =? 0)%nat then Yes
  else match priors with
       | None => No
       | Some ps => match fit with
                    | None => if forallb (fun b => b) ps then Yes else No
                    | Some l => baseFit ps l true
                    end
       end.
(** Model.hasLimits over the chain of models ; array tells that fitindex is an array: comparing a list with a number is a TypeError *)
Fixpoint chainHasLimits (models : list (nat * option (list bool))) (array : bool) (fit : option (list Z)) : answer :=
  match models with
  | [] => Yes
  | (np, ps) :: r =>
      match baseHasLimits np ps fit with
      | Yes =>
          match fit with
          | None => chainHasLimits r array None
          | Some l => if array then chainHasLimits r array (Some (map (fun k => k - Z.of_nat np)%Z (filter (fun k => (Z.of_nat np <=? k)%Z) l)))
                      else Error
          end
      | a => a
      end
  end.
