(** What the iterative fitters hand to a minimiser, and what they do with its answer: MaxLikelihoodFitter.py:104-362,
    GaussErrorDistribution.py:254-296, CurveFitter.py:117-222, ScipyFitter.py:108-370 (with 390-778) and
    AmoebaFitter.py:105-218, in real numbers.  scipy's minimize and curve_fit and AnnealingAmoeba.minimize are parameters.
    Left out: plotting, printing, warnings, options, callbacks, user gradients, imageAssistant, getScale. *)
From Coq Require Import List Arith ZArith Reals Bool.
From Verif Require Import L_Sum M_Order M_Fitter M_Errdis.
Import ListNotations.
Local Open Scope R_scope.

(** BaseFitter.insertParameters (BaseFitter.py:320-343); index None: the one of the fitter *)
Definition insertAt (m : pmodel) (s : fst8) (index : option (list nat)) (par : vec) : vec :=
  match (match index with None => f_index s | Some fi => Some fi end) with
  | None => par
  | Some fi => insertParameters m par fi (f_par s)
  end.
(** BaseFitter.getDesign (BaseFitter.py:713-714) *)
Definition columnsOf (m : pmodel) (index : option (list nat)) : list nat := match index with None => seq 0 (m_np m) | Some fi => fi end.

(** ** _Chisq *)
(** func (237-247) *)
Definition chiFunc (m : pmodel) (s : fst8) (y wgt : vec) (index : option (list nat)) (par : vec) : result R :=
  fst (chiSquared m y wgt (insertAt m s index par) s).
(** dfunc (256-268); there are no rows of normalize (MaxLikelihoodFitter.normalize raises) *)
Definition chiGrad (m : pmodel) (s : fst8) (y wgt : vec) (index : option (list nat)) (par : vec) : vec :=
  let param := insertAt m s index par in
  fun k => 2 * sum (m_n m) (fun i => getDesign m s param (columnsOf m index) i k * ((m_res m param i - y i) * wgt i)).
(** hessian (270-274) *)
Definition chiHess (m : pmodel) (s : fst8) (wgt : vec) (index : option (list nat)) (par : vec) : mat :=
  getHessian m s par wgt (columnsOf m index).

(** ** _LogL; params: model.parameters, index: the fit index *)
Fixpoint placeL (index : list nat) (fitpar params : list R) : list R :=
  match index, fitpar with
  | j :: index, t :: fitpar => placeL index fitpar (upd j t params)
  | _, _ => params
  end.
(** insertParameters (BaseFitter.py:320-343) with a list, and 348, 354, 360 *)
Definition allPars (params hypar : list R) (index : list nat) (fitpar : list R) : list R :=
  (if (length fitpar =? length params)%nat then fitpar else placeL index fitpar params) ++ hypar.
(** func (346-349) *)
Definition logFunc (e : errdis) (p : problem) (params hypar : list R) (index : list nat) (fitpar : list R) : option R :=
  option_map Ropp (logLhood e p (allPars params hypar index fitpar)).
(** dfunc (352-356) *)
Definition logGrad (e : errdis) (p : problem) (params hypar : list R) (index : list nat) (fitpar : list R) : option (list R) :=
  option_map (map Ropp) (partialLogL e p (allPars params hypar index fitpar) (map Z.of_nat index)).
(** GaussErrorDistribution.hessianLogL (GaussErrorDistribution.py:276-296).  None: IndexError; when the last index is np the
    column np is asked (283-286).  deswgt is the same array as design (288-290): both are multiplied by the weights. *)
Definition gaussHess (p : problem) (allpars : list R) (fitIndex : list nat) : option (nat -> nat -> R) :=
  let np := npars p in
  let param := firstn np allpars in
  let s2 := nth np allpars 0 * nth np allpars 0 in
  match rev fitIndex with
  | [] => None
  | last :: _ =>
      if (last =? np)%nat then None
      else Some (fun k l => Rsum (map (fun r =>
             (r_df r param (nth k fitIndex 0%nat) * wgt p r) * (r_df r param (nth l fitIndex 0%nat) * wgt p r)) (rows p)) / s2)
  end.
(** hessian (358-362); the other error distributions have no hessianLogL *)
Definition logHess (p : problem) (params hypar : list R) (index : list nat) (fitpar : list R) : option (nat -> nat -> R) :=
  option_map (fun h k l => - h k l) (gaussHess p (allPars params hypar index fitpar) index).

(** ** CurveFitter *)
(** fit (117-139): the index of this fit, the weights, and the fitter.  None is never passed as weights by fitprolog, so that
    121-123 are not reached. *)
Definition cfProlog (m : pmodel) (weights acc : option vec) (keep : option (list (nat * R))) (s : fst8) : M_Fitter.result (list nat * vec * fst8) :=
  match fitprolog m weights acc keep s with
  | Err e => Err e
  | Ret (fi, w, s) =>
      match keep with
      | None => Ret (fi, w, s)
      | Some kp => match keepFixed m (Some kp) s with
                   | Err e => Err e
                   | Ret (fx, s) => Ret (fi, w, set_index s fx)
                   end
      end
  end.
(** 125-127 and 148-155: sigma for all rows, those of normalize included; n rows in all *)
Definition least (n : nat) (f : vec) : R := fold_left (fun a i => Rmin a (f i)) (seq 1 (n - 1)) (f 0%nat).
Definition cfSigma (m : pmodel) (s : fst8) (w : vec) : vec :=
  let sigma := fun i => 1 / sqrt (if Req_EM_T (w i) 0 then / 10 ^ 20 else w i) in
  let ms := least (m_n m) sigma in
  append (m_n m) sigma (fun i => 1 / sqrt (if Req_EM_T (f_nwgt s i) 0 then ms / 10 ^ 10 else f_nwgt s i)).
(** 146-149 *)
Definition cfData (m : pmodel) (s : fst8) (y : vec) : vec := append (m_n m) y (f_ndat s).
(** result (187-205) and jacobian (207-222) *)
Definition cfResult (m : pmodel) (s : fst8) (fitpar : vec) : vec :=
  let params := insertAt m s None fitpar in
  append (m_n m) (m_res m params) (fun i => sum (m_np m) (fun j => f_ndf s i j * params j)).
Definition cfJacobian (m : pmodel) (s : fst8) (fitpar : vec) : mat :=
  getDesign m s (insertAt m s None fitpar) (columnsOf m (f_index s)).
(** 142-144: the starting values *)
Definition cfStart (s : fst8) (inipar : option vec) (fi : list nat) : vec :=
  fun k => (match inipar with None => f_par s | Some p => p end) (nth k fi 0%nat).
(** 130-136: the bounds; prior: getLimits of the model when it has priors; None: no bounds *)
Definition cfBounds (limits prior : option (list R * list R)) : option (list R * list R) :=
  match limits with Some l => Some l | None => prior end.
(** scipy.optimize.curve_fit raises ValueError unless there is one bound for every starting value *)
Definition boundsAccepted (n : nat) (bounds : option (list R * list R)) : bool :=
  match bounds with None => true | Some (lo, hi) => andb (length lo =? n)%nat (length hi =? n)%nat end.

(** fit (159-174); curve f y sigma jac p0 : optimal parameters; scipy.optimize.curve_fit *)
Definition cfFit (curve : nat -> (vec -> vec) -> vec -> vec -> (vec -> mat) -> vec -> vec) (m : pmodel) (y : vec) (weights acc : option vec)
    (inipar : option vec) (keep : option (list (nat * R))) (s : fst8) : M_Fitter.result vec * fst8 :=
  match cfProlog m weights acc keep s with
  | Err e => (Err e, s)
  | Ret (fi, w, s) =>
      let out := curve (M_Fitter.rows m s) (cfResult m s) (cfData m s y) (cfSigma m s w) (cfJacobian m s) (cfStart s inipar fi) in
      let pars := insertParameters m out fi (f_par s) in
      let s := set_par s pars in
      match chiSquared m y w pars s with
      | (Ret _, s) => (Ret pars, s)
      | (Err e, s) => (Err e, s)
      end
  end.

(** ** ScipyFitter *)
(** __init__ (168): str.upper( method ); a name stays a name *)
Definition sfMethod {A} (method : option A) : M_Fitter.result A := match method with None => Err TypeError | Some a => Ret a end.
(** the gradient that reaches ScipyFitter.__init__ from BfgsFitter (523) and from ConjugateGradientFitter (487) *)
Definition bfgsGradient (gradient : bool) : bool := gradient.
Definition cgGradient (gradient : bool) : bool := true.
(** fit (228): the starting values; par0 is not used *)
Definition sfStart (s : fst8) (par0 : option vec) (fi : list nat) : vec := fun k => f_par s (nth k fi 0%nat).
(** fit (231-235): the limits, a pair of arrays; prior: those of the priors of the model, if there are *)
Definition sfLimits (limits prior : option (list R * list R)) (fi : list nat) : option (list R * list R) :=
  match limits, prior with
  | Some _, Some (lo, hi) => Some (map (fun k => nth k lo 0) fi, map (fun k => nth k hi 0) fi)
  | _, _ => limits
  end.
(** scipy.optimize.minimize: "bounds: sequence of (min, max) pairs for each element in x"; a pair of arrays of two elements
    is such a sequence for two parameters; otherwise an error (None).  *)
Definition scipyBounds (limits : list R * list R) : option (list (R * R)) :=
  match limits with
  | ([a; b], [c; d]) => Some [(a, b); (c, d)]
  | _ => None
  end.
(** fit (225-228, 246, 283-346, 370) with chisq, limits None; minimize func jac x0 : res["x"], res["fun"] *)
Definition sfFit (minimize : (vec -> M_Fitter.result R) -> (vec -> vec) -> vec -> vec * R) (m : pmodel) (y : vec) (weights acc : option vec)
    (par0 : option vec) (keep : option (list (nat * R))) (s : fst8) : M_Fitter.result vec * fst8 :=
  match fitprolog m weights acc keep s with
  | Err e => (Err e, s)
  | Ret (fi, w, s) =>
      let '(x, f) := minimize (chiFunc m s y w (Some fi)) (chiGrad m s y w (Some fi)) (sfStart s par0 fi) in
      let parameters := insertParameters m x fi (f_par s) in
      (Ret parameters, set_chi (set_par s parameters) f)
  end.

(** ** AmoebaFitter.fit (164-218) with chisq.  n0: the length of par0 (None: model.parameters) *)
Definition afStart (m : pmodel) (s : fst8) (par0 : option (nat * vec)) (fi : list nat) : vec :=
  let '(n0, p) := match par0 with None => (m_np m, f_par s) | Some np => np end in
  if (length fi <? n0)%nat then (fun k => p (nth k fi 0%nat)) else p.
Definition afFit (minimize : (vec -> M_Fitter.result R) -> vec -> vec * R) (m : pmodel) (y : vec) (weights acc : option vec)
    (par0 : option (nat * vec)) (keep : option (list (nat * R))) (s : fst8) : M_Fitter.result vec * fst8 :=
  match fitprolog m weights acc keep s with
  | Err e => (Err e, s)
  | Ret (fi, w, s) =>
      let '(x, f) := minimize (chiFunc m s y w (Some fi)) (afStart m s par0 fi) in
      let parameters := insertParameters m x fi (f_par s) in
      (Ret parameters, set_chi (set_par s parameters) f)
  end.
