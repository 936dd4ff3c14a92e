(** Model of what an iterative fitter shows while it runs (IterativeFitter.py:81-151, 212-222; LevenbergMarquardtFitter.py:198-215, 268-271;
    RobustShell.py:230-258), and of the names of the parameters of a model that grows and shrinks (Dynamic.py:131-221, BaseModel.py:387-408,
    Model.py:1074-1095).
    A line that is printed is represented by the number of the iteration in it; numbers and their format are in M_Tools. *)
From Coq Require Import List Arith Bool.
Import ListNotations.

(** ** Lines *)
(** IterativeFitter.py:114-116 *)
Definition maxIterOf (maxIter : option nat) (npchain : nat) : nat := match maxIter with None => 1000 * npchain | Some n => n end.
(** IterativeFitter.py:217 *)
Definition printed (verbose : nat) (force : bool) (iter : nat) : bool := (1 <? verbose) && ((iter mod 100 =? 0) || force).
(** IterativeFitter.py:219: the number of parameters in a line; None: all of them *)
Definition maxShown (verbose : nat) : option nat := if verbose <? 4 then Some 5 else if verbose =? 4 then None else Some verbose.
Definition report (verbose : nat) (force : bool) (iter : nat) : list nat := if printed verbose force iter then [iter] else [].
(** LevenbergMarquardtFitter: the iterations from it+1 on in trialfit (268-271), the line when it has converged (205) *)
Fixpoint trials (verbose : nat) (it n : nat) : list nat :=
  match n with 0 => [] | S n => report verbose (3 <=? verbose) (S it) ++ trials verbose (S it) n end.
Definition lmLines (verbose n : nat) : list nat := trials verbose 0 n ++ report verbose true n.
(** RobustShell.py:235-258: conv is whether the round converges; iter is at most maxIter *)
Fixpoint robust (verbose todo iter : nat) (conv : nat -> bool) : list nat :=
  match todo with
  | 0 => []
  | S todo => if conv iter then report verbose true iter
              else report verbose (3 <=? verbose) iter ++ robust verbose todo (S iter) conv
  end.
Definition robustLines (verbose maxIter : nat) (conv : nat -> bool) : list nat := robust verbose maxIter 0 conv.

(** ** Plots *)
Inductive plotted := NoPlot | AttributeError.
(** IterativeFitter.py:149-151; the number of iterations is in iter, there is no _iter *)
Definition doPlot (plotfreq iter : nat) (force : bool) : plotted :=
  if ((0 <? plotfreq) && (iter mod plotfreq =? 0)) || force then AttributeError else NoPlot.

(** ** Names *)
Inductive name := Given (n : nat) | Numbered (k : nat).        (* one of the user's, or parameter_k *)
Record nm := mkN { n_npbase : nat; n_names : list name }.
(** Dynamic.py:207-221, after npbase has been changed (224-248).  up: dnp > 0 *)
Definition alterNames (up : bool) (m : nm) : nm :=
  mkN (n_npbase m) (if up then map Numbered (seq 0 (n_npbase m)) else firstn (n_npbase m) (n_names m)).
Inductive change := Grow (dnp : nat) | Shrink (dnp : nat).
(** Dynamic.py:131-205; None: IndexError in alterParameters, dnp is too large *)
Definition apply (m : nm) (c : change) : option nm :=
  match c with
  | Grow 0 => Some (alterNames false m)
  | Grow d => Some (alterNames true (mkN (n_npbase m + d) (n_names m)))
  | Shrink d => if n_npbase m <? d then None else Some (alterNames false (mkN (n_npbase m - d) (n_names m)))
  end.
Fixpoint applyAll (m : nm) (l : list change) : option nm :=
  match l with [] => Some m | c :: r => match apply m c with Some m => applyAll m r | None => None end end.
(** Model.py:1074-1095; None: IndexError *)
Fixpoint nameOf (c : list nm) (k : nat) : option name :=
  match c with [] => None | m :: r => if k <? n_npbase m then nth_error (n_names m) k else nameOf r (k - n_npbase m) end.
