(** The probability of a model: ModelDistribution.py.  Fitters and NestedSampler are functions of what they are given;
    that is their model, their keywords, the weights, and a fixed scale or limits on the scale. *)
From Coq Require Import Reals List Arith Bool.
Import ListNotations.
Local Open Scope R_scope.

(** a model: number of parameters, and for each model in the chain whether it is a LinearModel; m_id distinguishes further *)
Record amodel := mkA { m_np : nat; m_lin : list bool; m_id : nat }.
Inductive fkind := KFitter | KLeven | KCurve | KAmoeba.
(** what a fit yields, or the exception of fit or getLogZ *)
Inductive outc := Done (pars : list R) (scale logZ : R) | LinAlgE | ValueE | RuntimeE.
(** the arbiter: none, a fitter with its own model, scale and keywords, the name of a fitter, nested..., something else *)
Inductive arbiter := ArbNone | ArbFitter (k : fkind) (m : amodel) (fs : option R) (kw : list nat) | ArbName (k : fkind) | ArbNested | ArbBad.
Record mdis := mkM { d_arb : arbiter; d_kw : list nat; d_scale : R; d_lim : option (R * R) }.

Inductive ev := Ev (e : R) | LowMax | MinusInf.
(** value and the list of parameters as it is left; or an exception *)
Inductive ans := Ans (e : ev) (allpars : list R) | Fails.

Section Arb.
Variables (fit : fkind -> amodel -> option R -> list nat -> option (list R) -> option (R * R) -> outc)
          (nested : amodel -> list nat -> option (list R) -> option (R * R) -> outc).

(** isinstance( mdl, LinearModel ): of the first in the chain (147) *)
Definition isLinear (m : amodel) : bool := match m_lin m with b :: _ => b | [] => false end.
Definition autoKind (m : amodel) : fkind := if isLinear m then KFitter else KLeven.

(** allpars[:np] = pars: None: ValueError; one value goes everywhere *)
Definition assign (np : nat) (pars allpars : list R) : option (list R) :=
  let n := Nat.min np (length allpars) in
  if (length pars =? n)%nat then Some (pars ++ skipn np allpars)
  else match pars with [v] => Some (map (fun _ => v) (seq 0 n) ++ skipn np allpars) | _ => None end.
(** allpars[-1] = v *)
Definition setLast (v : R) (l : list R) : list R := removelast l ++ [v].

(** 204-220; fr: the outcome of ftr.fit( problem.ydata ) and getLogZ *)
Definition finish (m : amodel) (lim : option (R * R)) (allpars : list R) (fr : outc) : ans :=
  match fr with
  | Done pars scale logZ =>
    match assign (m_np m) pars allpars with
    | Some ap => Ans (Ev logZ) (match lim with Some _ => setLast scale ap | None => ap end)
    | None => Ans LowMax allpars
    end
  | LinAlgE | ValueE => Ans LowMax allpars
  | RuntimeE => Fails
  end.

(** logLikelihood_alt (113-220) for a given list of parameters.  NestedSampler.sample returns 10log( evidence ) (NestedSampler.py:916-917).
    The weights w of the problem go to NestedSampler only. *)
Definition modelLogL (d : mdis) (m : amodel) (w : option (list R)) (allpars : list R) : ans :=
  let lim := d_lim d in
  let fs := match lim with Some _ => None | None => Some (d_scale d) end in
  let allpars := match lim with None => if (m_np m <? length allpars)%nat then setLast (d_scale d) allpars else allpars | Some _ => allpars end in
  match d_arb d with
  | ArbNone => finish m lim allpars (fit (autoKind m) m fs (d_kw d) None lim)
  | ArbFitter k m' fs' kw' => finish m lim allpars (fit k m' fs' kw' None lim)
  | ArbName k => finish m lim allpars (fit k m fs (d_kw d) None lim)
  | ArbNested =>
    match nested m (d_kw d) w lim with
    | Done pars scale logZ =>
      match assign (m_np m) pars allpars with
      | Some ap => Ans (Ev (logZ / ln 10)) (match lim with Some _ => setLast scale ap | None => ap end)
      | None => Fails
      end
    | RuntimeE => Ans MinusInf allpars
    | LinAlgE | ValueE => Fails
    end
  | ArbBad => Fails
  end.
End Arb.

(** copy (100-102) *)
Definition mdCopy (d : mdis) : mdis := mkM (d_arb d) [] (d_scale d) (d_lim d).
