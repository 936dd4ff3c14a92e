(** A problem with more than one output per datum: MultipleOutputProblem.py.  Arrays are lists of rows. *)
From Coquelicot Require Import Coquelicot.
From Coq Require Import Reals List Arith Bool.
From Verif Require Import M_Errdis.
Import ListNotations.
Local Open Scope R_scope.

(** weights or accuracy: None, something without a shape (a python float or a list), a vector, a matrix *)
Inductive wgts := WNone | WPlain | W1 (w : list R) | W2 (w : list (list R)).

(** expandFlat (90-102); None: AttributeError, as there is no attribute shape *)
Definition expandFlat (w : wgts) (ndout : nat) : option (option (list R)) :=
  match w with
  | WNone => Some None
  | WPlain => None
  | W1 w => Some (Some (concat (map (fun x => map (fun _ => x) (seq 0 ndout)) w)))
  | W2 w => Some (Some (concat w))
  end.

(** numpy.append( a, b, 1 ) *)
Definition append1 (a b : list (list R)) : list (list R) := map (fun p => fst p ++ snd p) (combine a b).
(** reshape( -1, npars ) of the items one after another *)
Fixpoint chunks (k : nat) (npars : nat) (l : list R) : list (list R) :=
  match k with O => [] | S k => firstn npars l :: chunks k npars (skipn npars l) end.
Definition reshape (npars : nat) (a : list (list R)) : list (list R) := chunks (length (concat a) / npars) npars (concat a).
(** partial (117-134): parts is a list of ndout matrices *)
Definition moPartial (npars : nat) (parts : list (list (list R))) : list (list R) :=
  match parts with [] => [] | p0 :: ps => reshape npars (fold_left append1 ps p0) end.

(** Problem.residuals (Problem.py:222-224) with cycor2 (263-268), which corrects the outputs that are listed with their period *)
Definition cycor2 (cyclic : list (nat * R)) (res : list (list R)) : list (list R) :=
  fold_left (fun res kp => map (fun row => map (fun bx => if (fst bx =? fst kp)%nat then cyclize (snd kp) (snd bx) else snd bx) (combine (seq 0 (length row)) row)) res) cyclic res.
Definition moRes (cyclic : list (nat * R)) (ydata result : list (list R)) : list (list R) :=
  cycor2 cyclic (map (fun p => map (fun q => fst q - snd q) (combine (fst p) (snd p))) (combine ydata result)).
(** residuals (148-153) *)
Definition moResiduals (cyclic : list (nat * R)) (ydata result : list (list R)) : list R := concat (moRes cyclic ydata result).

(** sumweight and ndata (Problem.py:160-168): len( ydata ) is the number of data, not of residuals *)
Definition moSumweight (ydata : list (list R)) (weights : option (list R)) : R :=
  match weights with Some w => Rsum w | None => INR (length ydata) end.
(** ErrorDistribution.getGaussianScale (ErrorDistribution.py:172-173) with Problem.weightedResSq (Problem.py:345-348) *)
Definition moScale (ydata : list (list R)) (weights : option (list R)) (res : list R) : R :=
  sqrt (match weights with
        | None => Rsum (map (fun x => x * x) res)
        | Some w => Rsum (map (fun p => fst p * snd p * fst p) (combine res w))
        end / moSumweight ydata weights).
