(** Gauss2dErrorDistribution (Gauss2dErrorDistribution.py:36-255), the error distribution of an ErrorsInXandYProblem.
    param holds the parameters of the model and the targets, s is the noise scale: allpars = param + [s], so that
    allpars[-1] and allpars[npars] are both s.  Arrays over the data are lists. *)
From Coq Require Import List Arith Reals.
From Verif Require Import M_ErrXY.
Import ListNotations.
Local Open Scope R_scope.

(** 62 *)
Definition LOG2PI : R := ln (2 * PI).

(** numbered items of a list *)
Definition enum {A} (l : list A) : list (nat * A) := combine (seq 0 (length l)) l.

(** numpy.sum *)
Definition total (l : list R) : R := fold_right Rplus 0 l.

(** updateDeterminant (104-116), for point i *)
Definition updateDet (p : problem) (s : R) (i : nat) : R :=
  let s2 := s * s in q_det p i + s2 * (varxx (q_store p) i + varyy (q_store p) i + s2).

(** logLdata (150-174) *)
Definition logLdata (p : problem) (param : list R) (s : R) : list R :=
  map (fun it => - (1 / 2) * ((LOG2PI + ln (updateDet p s (fst it))) * wgt p (fst it) + snd it)) (enum (weightedResSq p param s)).

(** the second item of weightedResSq( extra=True ): numpy.append( yr, xr ) (ErrorsInXandYProblem.py:423-432) *)
Definition resExtra (p : problem) (param : list R) (s : R) : list R :=
  map (fun it => extraY p (fst it) s (fst (snd it)) (snd (snd it))) (enum (xyres p param)) ++
  map (fun it => extraX p (fst it) s (fst (snd it)) (snd (snd it))) (enum (xyres p param)).

(** nextPartialData (221-255) for a parameter k >= 0 (248-249): res * dM[:,k], two items for each data point *)
Definition partialPar (p : problem) (param : list R) (s : R) (k : nat) : list R :=
  map (fun t => fst t * nth k (snd t) 0) (combine (resExtra p param s) (partial p param)).

(** nextPartialData for the scale (250-253) *)
Definition partialScale (p : problem) (param : list R) (s : R) : list R :=
  map (fun it => let i := fst it in let '(y, x) := snd it in
         - s / updateDet p s i * ((varxx (q_store p) i + varyy (q_store p) i + 2 * s * s) * (wgt p i - res2 p i s y x * wgt p i) + extra2 p i y x))
      (enum (xyres p param)).

(** logLikelihood_alt (120-148).  One number for the determinant (covariances or accuracies that are the same for
    all points), or an array.  With weights line 146 uses a global name LOG2PI that does not exist. *)
Inductive outcome := Num (v : R) | NameError.
Definition oneDet (s : store) : bool := match s with SNum _ _ _ _ | SScalar _ => true | _ => false end.
Definition logLalt (p : problem) (param : list R) (s : R) : outcome :=
  let chisq := total (weightedResSq p param s) in
  let n := length (q_x p) in
  match q_w p with
  | None =>
      let norm := if oneDet (q_store p) then INR n * (LOG2PI + ln (updateDet p s 0))
                  else INR n * LOG2PI + total (map (fun i => ln (updateDet p s i)) (seq 0 n)) in
      Num (- (1 / 2) * (norm + chisq))
  | Some _ => NameError
  end.
