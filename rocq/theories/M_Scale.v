(** The estimate of the noise scale from the residuals: getScale of the error distributions, and its use by MaxLikelihoodFitter. *)
From Coquelicot Require Import Coquelicot.
From Coq Require Import Reals List ZArith.
From Verif Require Import M_Errdis M_Sigma.
Import ListNotations.
Local Open Scope R_scope.

(** The model parameters in allpars, when there are nh hyper parameters: ErrorDistribution.getResiduals (ErrorDistribution.py:187-191).
    allpars[:-0] is empty. *)
Definition resPars (nh : nat) (modelpars : list R) (allpars : option (list R)) : list R :=
  match allpars with None => modelpars | Some a => match nh with O => [] | _ => dropEnd nh a end end.
(** ErrorDistribution.getChisq (210-214) *)
Definition chiPars (nh : nat) (modelpars : list R) (allpars : option (list R)) : list R :=
  match allpars with None => modelpars | Some a => match nh with O => a | _ => dropEnd nh a end end.

(** Problem.weightedResSq (Problem.py:345-348) *)
Definition weightedResSq (p : problem) (param : list R) (r : row) : R :=
  let res := residual p (firstn (npars p) param) r in (if hasW p then res * r_w r else res) * res.
(** ErrorDistribution.getChisq (216-218) *)
Definition getChisq (nh : nat) (p : problem) (modelpars : list R) (allpars : option (list R)) : R :=
  Rsum (map (weightedResSq p (chiPars nh modelpars allpars)) (rows p)).
(** ErrorDistribution.getGaussianScale (172-173); GaussErrorDistribution.py:97-109 and PoissonErrorDistribution.py:86-99 *)
Definition gaussianScale (nh : nat) (p : problem) (modelpars : list R) (allpars : option (list R)) : R :=
  sqrt (getChisq nh p modelpars allpars / sumweight p).

(** LaplaceErrorDistribution.getSumRes (LaplaceErrorDistribution.py:144-148), scale = 1 *)
Definition getSumRes (p : problem) (modelpars : list R) (allpars : option (list R)) : R :=
  Rsum (map (fun r => let res := residual p (resPars 1 modelpars allpars) r in Rabs (if hasW p then res * r_w r else res)) (rows p)).
(** LaplaceErrorDistribution.getScale (124-125) *)
Definition laplaceScale (p : problem) (modelpars : list R) (allpars : option (list R)) : R :=
  getSumRes p modelpars allpars / sumweight p.

(** UniformErrorDistribution.getScale (UniformErrorDistribution.py:112-113).  numpy.max of an empty array raises; here it is 0. *)
Definition uniformScale (p : problem) (modelpars : list R) (allpars : option (list R)) : R :=
  fold_right Rmax 0 (map (fun r => Rabs (residual p (resPars 1 modelpars allpars) r)) (rows p)).

(** ExponentialErrorDistribution.getChipow (ExponentialErrorDistribution.py:217-224), scale = 1; without allpars a TypeError: None *)
Definition getChipow (p : problem) (allpars : list R) : R :=
  Rsum (map (fun r => let ares := npow (Rabs (residual p (dropEnd 2 allpars) r)) (fromEnd 1 allpars) in
                      if hasW p then ares * r_w r else ares) (rows p)).
(** getScale (238-240) *)
Definition expoScale (p : problem) (modelpars : list R) (allpars : option (list R)) : option R :=
  match allpars with
  | None => None
  | Some a => Some (npow (getChipow p a / sumweight p) (1 / fromEnd 1 a))
  end.

(** CauchyErrorDistribution.funct (CauchyErrorDistribution.py:122-127); getScale (115-120) is a zero of it between 0.001 and 100,
    found by scipy.optimize.bisect, which raises when the signs at the ends are the same. *)
Definition cauchyFunct (p : problem) (modelpars : list R) (allpars : option (list R)) (scale : R) : R :=
  Rsum (map (fun r => let res := residual p (resPars 1 modelpars allpars) r in ln (res * res + scale * scale)) (rows p))
  - sumweight p * (2 * ln scale + sqrt 2).
Definition cauchyScale (bisect : (R -> R) -> R -> R -> R) (p : problem) (modelpars : list R) (allpars : option (list R)) : option R :=
  let f := cauchyFunct p modelpars allpars in
  if Rlt_dec 0 (f (1 / 1000) * f 100) then None else Some (bisect f (1 / 1000) 100).

(** MaxLikelihoodFitter.getLogLikelihood( autoscale=True ) (MaxLikelihoodFitter.py:158-169) with _LogL.getScale (334-343) and
    _LogL.func (346-349), for an error distribution with one hyper parameter; all parameters are fitted. *)
Definition autoLogL (e : errdis) (scale : problem -> list R -> option (list R) -> R) (toSigma : R -> R) (p : problem) (par : list R) (hypar : R) : option R :=
  let hypar := toSigma (scale p par (Some (par ++ [hypar]))) in logLhood e p (par ++ [hypar]).
