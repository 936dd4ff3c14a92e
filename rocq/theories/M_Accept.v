(** Model of the check of the data at the start of a fit (BaseFitter.py:218-279, checkNan 466-492; IterativeFitter.py:153-185), and of
    Tools.subclassof (Tools.py:360-378).  Floats are real numbers, infinities or NaN; there is no imageAssistant; arrays have the same length. *)
From Coq Require Import Reals List Arith Bool.
Import ListNotations.
Local Open Scope R_scope.

(** ** Data *)
Inductive fl := Fin (r : R) | Inf | MInf | NaN.
(** numpy.isfinite *)
Definition isfinite (a : fl) : bool := match a with Fin _ => true | _ => false end.
(** a > 0 *)
Definition above (a : fl) : bool := match a with Fin r => if Rlt_dec 0 r then true else false | Inf => true | _ => false end.
(** accuracy: a number, an array, or a list (or tuple) of numbers *)
Inductive accuracy := Number (a : fl) | Array (l : list fl) | PyList (l : list fl).
Definition accList (a : accuracy) : list fl := match a with Number a => [a] | Array l | PyList l => l end.
Inductive outcome := Ok | ValueError | TypeError.
(** BaseFitter.py:484-492; line 491 compares a list with 0 *)
Definition checkNan (y : list fl) (w : option (list fl)) (a : option accuracy) : outcome :=
  if negb (forallb isfinite y) then ValueError
  else if match w with Some w => negb (forallb isfinite w) | None => false end then ValueError
  else match a with
       | None => Ok
       | Some a => if negb (forallb isfinite (accList a)) then ValueError
                   else match a with
                        | PyList _ => TypeError
                        | _ => if forallb above (accList a) then Ok else ValueError
                        end
       end.
Definition real (a : fl) : R := match a with Fin r => r | _ => 0 end.
Definition accAt (a : option accuracy) (i : nat) : R :=
  match a with None => 1 | Some (Number a) => real a | Some (Array l) | Some (PyList l) => nth i (map real l) 1 end.
Definition wgtAt (w : option (list fl)) (i : nat) : R := match w with None => 1 | Some w => nth i (map real w) 0 end.
(** The attributes fitprolog sets: weights, accuracy, fitWgts (at the i-th datum), sumwgt *)
Record fstate := mkF { f_weights : option (list fl); f_accuracy : option accuracy; f_fitWgts : nat -> R; f_sumwgt : R; f_iter : nat }.
(** BaseFitter.py:246-268 *)
Definition prolog (y : list fl) (w : option (list fl)) (a : option accuracy) (s : fstate) : outcome * fstate :=
  match checkNan y w a with
  | Ok => (Ok, mkF w a (fun i => wgtAt w i / (accAt a i * accAt a i))
                   (match w with None => INR (length y) | Some w => fold_right Rplus 0 (map real w) end) (f_iter s))
  | o => (o, s)
  end.
(** IterativeFitter.py:179-185, without plots *)
Definition iterProlog (y : list fl) (w : option (list fl)) (a : option accuracy) (s : fstate) : outcome * fstate :=
  prolog y w a (mkF (f_weights s) (f_accuracy s) (f_fitWgts s) (f_sumwgt s) 0).

(** ** Classes *)
(** A class is a number, numbered in the order of inspect.getclasstree: by module and name; its bases: those classes, in the order of the
    class statement; object (number 0) has none *)
Section Classes.
Context (bases : nat -> list nat).
(** inspect.getclasstree( [sub], unique=True )[0][0]: the first in the order, of the bases; None: the end, object *)
Definition firstBase (c : nat) : option nat :=
  match bases c with [] => None | b :: r => Some (fold_left Nat.min r b) end.
(** Tools.py:372-378; fuel: at least the depth of the tree.  isclass is false for what is not a class *)
Fixpoint climb (fuel sub cls : nat) : bool :=
  match fuel with
  | O => false
  | S f => if Nat.eqb sub cls then true
           else match firstBase sub with None => false | Some b => climb f b cls end
  end.
Definition subclassof (fuel : nat) (isclass : bool) (sub cls : nat) : bool := if negb isclass then false else climb fuel sub cls.
End Classes.
