(** The conversion of a noise scale into a standard deviation: toSigma of the error distributions. *)
From Coq Require Import Reals.
Local Open Scope R_scope.

(** ErrorDistribution.py:223-234, inherited by GaussErrorDistribution and CauchyErrorDistribution *)
Definition defaultSigma (scale : R) : R := scale.
(** LaplaceErrorDistribution.py:102-110 *)
Definition laplaceSigma (scale : R) : R := scale * sqrt 2.
(** UniformErrorDistribution.py:115-123 *)
Definition uniformSigma (scale : R) : R := scale * 2 / sqrt 12.
(** ExponentialErrorDistribution.py:132-141; gamma is scipy.special.gamma *)
Definition expoSigma (gamma : R -> R) (scale power : R) : R := scale * sqrt (gamma (3 / power) / gamma (1 / power)).
