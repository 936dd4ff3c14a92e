(** The likelihood and the evidence of a fit (BaseFitter.py: fitprolog 262-268, getHessian 561-601, makeVariance 636-656,
    chiSquared 719-747, getScale 806-822, getEvidence 825-849, getLogLikelihood 851-876, getLogZ 878-962), in real numbers.
    A data array is a function of the data index and its length m, the hessian a function of two indices.
    Simplified: weights are present or absent, accuracy is absent, one number or an array; the priors of the parameters are present
    as the list of their integrals (the getIntegral of a uniform prior is the length of its range); the keyword limits as the list of
    the differences.  The determinant of numpy.linalg is an argument.  The hessian is that of the latest fit, in the fitted
    parameters.  Left out: normalisations (BaseFitter.normalize). *)
From Coq Require Import String List Arith ZArith Reals Bool.
From Verif Require Import L_Sum.
Import ListNotations.
Local Open Scope R_scope.

Inductive result := Value (v : R) | Error (msg : string).

Inductive acc := NoAcc | Single (a : R) | Many (a : nat -> R).

(** fitprolog (262-268) *)
Definition weightOf (weights : option (nat -> R)) (i : nat) : R := match weights with None => 1 | Some w => w i end.
Definition accOf (a : acc) (i : nat) : R := match a with NoAcc => 1 | Single s => s | Many f => f i end.
Definition fitWgts (weights : option (nat -> R)) (a : acc) (i : nat) : R :=
  weightOf weights i / (accOf a i * accOf a i).
Definition sumwgt (m : nat) (weights : option (nat -> R)) : R := match weights with None => INR m | Some w => sum m w end.

(** chiSquared (739-743): ydata and the result of the model *)
Definition chisq (m : nat) (weights : option (nat -> R)) (a : acc) (y f : nat -> R) : R :=
  sum m (fun i => (y i - f i) * (y i - f i) * fitWgts weights a i).

(** getHessian (585-599), of the columns of the fitted parameters *)
Definition getHessian (m : nat) (weights : option (nat -> R)) (a : acc) (design : nat -> nat -> R) (j k : nat) : R :=
  sum m (fun i => design i j * (design i k * fitWgts weights a i)).

(** what the fitter knows after a fit of m data points *)
Record fitter := {
  mdata : nat;
  wgt : option (nat -> R);
  accuracy : acc;
  chi : R;                        (* self.chisq *)
  npfit : nat;
  fixedScale : option R;
  minimumScale : option R;
  fitIndex : option (list nat);
  hessian : nat -> nat -> R;
  priors : option (list R);       (* integrals of model.priors, the priors of the first model of the chain; None: model has no limits *)
}.

(** getLogLikelihood (851-876) *)
Definition getLogLikelihood (F : fitter) (var : R) : R :=
  let slacc := match accuracy F with
    | NoAcc => 0
    | Single a => sumwgt (mdata F) (wgt F) * ln a
    | Many f => sum (mdata F) (fun i => ln (f i))
    end in
  - (1 / 2) * (sumwgt (mdata F) (wgt F) * ln (2 * PI * var) + chi F / var) - slacc.

(** getScale (818-822) and makeVariance (652-656), for dof > 0 *)
Definition getScale (F : fitter) : R := sqrt (chi F / (sumwgt (mdata F) (wgt F) - INR (npfit F))).
Definition makeVariance (F : fitter) : R :=
  let scale := getScale F in
  let var := scale * scale in
  match minimumScale F with None => var | Some s => var + s * s end.

(** the sum of the logarithms of the prior ranges (931-954); limits: the differences of the keyword limits *)
Definition lsum (l : list R) : R := fold_right Rplus 0 l.
Definition logRanges (F : fitter) (limits : option (list R)) : option R :=
  match (match limits with Some l => Some l | None => priors F end) with
  | None => None
  | Some range =>
      let prirange := map ln range in
      let '(spr, priorlength) :=
        if (length range =? 1)%nat then (nth 0 prirange 0, 1%nat)
        else match limits, fitIndex F with
             | None, Some fi =>
                 let fq := filter (fun k => (k <? length range)%nat) fi in
                 (lsum (map (fun k => nth k prirange 0) fq), length fq)
             | _, _ => (lsum prirange, length range)
             end in
      Some (if (priorlength <? npfit F)%nat
            then spr + INR (npfit F - priorlength) * last prirange 0
            else spr)
  end.

(** self.model.priors (931) of a chain of models, each with its number of parameters and the integrals of its own priors: an
    attribute of the first model of the chain *)
Definition modelPriors (chain : list (nat * list R)) : list R := match chain with [] => [] | (_, p) :: _ => p end.

Section Det.
  (** numpy.linalg.det of the n x n matrix *)
  Variable det : nat -> (nat -> nat -> R) -> R.

  (** getLogZ (878-962) *)
  Definition getLogZ (F : fitter) (limits : option (list R)) (noiseLimits : option (R * R)) : result :=
    let dof := sumwgt (mdata F) (wgt F) - INR (npfit F) in
    if Rle_dec dof 0 then Error "More parameters than (weighted) data points" else
    let '(s2, occam, spr0) :=
      match noiseLimits with
      | Some (lo, hi) =>
          let scalerange := ln hi - ln lo in
          (makeVariance F, 1 / 2 * ln (PI * dof) - scalerange, ln scalerange)
      | None =>
          let scale := match fixedScale F with None => 1 | Some s => s end in
          (scale * scale, 0, 0)
      end in
    let logL := getLogLikelihood F s2 in
    if (npfit F =? 0)%nat then Value (logL + occam) else
    match logRanges F limits with
    | None => Error "No limits provided on the parameters. Cannot calculate evidence."
    | Some lr =>
        let spr := spr0 + lr in
        let lidet := ln (det (npfit F) (hessian F)) in
        Value (logL + (occam + (- spr + 1 / 2 * (INR (npfit F) * ln (2 * PI * s2) - lidet))))
    end.

  (** getEvidence (849) *)
  Definition getEvidence (F : fitter) (limits : option (list R)) (noiseLimits : option (R * R)) : result :=
    match getLogZ F limits noiseLimits with Value z => Value (z / ln 10) | e => e end.
End Det.
