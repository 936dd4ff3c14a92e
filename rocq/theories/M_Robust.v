(** RobustShell (RobustShell.py:124-273). *)
From Coquelicot Require Import Rbar.
From Coq Require Import Reals List Arith.
From Verif Require Import M_Kernel.
Import ListNotations.
Local Open Scope R_scope.

(** A kernel object or a callable (160-171). *)
Inductive kern := KObj (K : kernel) | KFun (f : R -> R).

(** onesided (190-203): 0, +1, -1 *)
Inductive side := Both | Pos | Neg.

(** The attributes kernelfunc, domain and onesided (143-148). *)
Record shell := mkShell { s_func : R -> R; s_domain : R; s_side : side }.

(** setKernel (151-173): the function used. *)
Definition kfunc (k : kern) : R -> R := match k with KObj K => k_result K | KFun f => f end.

(** __init__ (143-148); None: AttributeError, self.kernel is None. *)
Definition mkRobust (k : kern) (domain : option R) (s : side) : option shell :=
  match domain, k with
  | Some d, _ => Some (mkShell (kfunc k) d s)
  | None, KObj K => Some (mkShell (kfunc k) (6 / k_fwhm K) s)
  | None, KFun _ => None
  end.

(** getOneSidedWeights (264-271) of one point. *)
Definition oneside (s : side) (wgt res : R) : R :=
  match s with
  | Both => wgt
  | Pos => if Rlt_dec res 0 then 1 else wgt
  | Neg => if Rlt_dec 0 res then 1 else wgt
  end.

(** 229-238: the new weights, given the data, the fit and the scale. *)
Definition robwgt (kf : R -> R) (s : side) (domain scale : R) (df : R * R) : R :=
  let r := (fst df - snd df) / (scale * domain) in oneside s (kf r) r.

Definition newweights (kf : R -> R) (s : side) (domain scale : R) (data yfit : list R) (weights : option (list R)) : list R :=
  let rw := map (robwgt kf s domain scale) (combine data yfit) in
  match weights with
  | None => rw
  | Some w => map (fun p => fst p * snd p) (combine rw w)
  end.

Section Fit.
  (** The embedded fitter: parameters, chisq and scale.  It may keep a state of its own: its answer
      depends on the number of the call.  None: it raises.  [result]: model.result at the xdata. *)
  Context {P : Type} (fitter : nat -> option (list R) -> option (P * R * R)) (result : P -> list R).
  Context (kf : R -> R) (s : side) (domain tolerance : R) (data : list R) (weights : option (list R)).

  (** The loop (226-256): n iterations left; [call] is the number of the next call of the fitter.
      The result: parameters, the weights used, chisq. *)
  Fixpoint rloop (n call : nat) (param : P) (chi scale : R) (last : list R) : option (P * list R * R) :=
    match n with
    | O => Some (param, last, chi)
    | S n' =>
        let w := newweights kf s domain scale data (result param) weights in
        match fitter call (Some w) with
        | None => None
        | Some (par', trychi, scale') =>
            let tol := if Rlt_dec trychi 1 then tolerance else tolerance * trychi in
            if Rlt_dec (Rabs (chi - trychi)) tol then Some (par', w, trychi)
            else rloop n' (S call) par' trychi scale' w
        end
    end.

  (** fit (219-262); None also for maxIter = 0: trychi is not bound in line 259. *)
  Definition rfit (maxIter : nat) : option (P * list R * R) :=
    match fitter 0%nat weights with
    | None => None
    | Some (param, chi, scale) =>
        match maxIter with
        | O => None
        | S _ => rloop maxIter 1 param chi scale []
        end
    end.
End Fit.

(** fit with its own arguments kernel, domain and onesided (219-221): the domain of the shell is
    used when none is given, also with another kernel. *)
Definition robust_fit {P} (sh : shell) (fitter : nat -> option (list R) -> option (P * R * R)) (result : P -> list R)
    (tolerance : R) (maxIter : nat) (data : list R) (weights : option (list R))
    (kernel : option kern) (domain : option R) (onesided : option side) : option (P * list R * R) :=
  rfit fitter result (match kernel with Some k => kfunc k | None => s_func sh end)
       (match onesided with Some o => o | None => s_side sh end)
       (match domain with Some d => d | None => s_domain sh end) tolerance data weights maxIter.
