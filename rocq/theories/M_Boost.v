(** Model of Engine.doBoost (Engine.py:192-234) as it is called in Engine.setWalker (183), of the fitter that
    is prepared in Engine.bestBoost (145-148), and of the lists of PhantomCollection.getList (111-120) and
    getDynamicList (190-200).
    The fitter is a function of the initial parameters to the fitted ones (None: it raises, which is caught);
    logLikelihood is a function of the list of all parameters. *)
From Coq Require Import Reals List ZArith Bool Arith.
Import ListNotations.
Local Open Scope R_scope.

Record walker := mkW { w_pars : list R; w_logL : R; w_fit : list Z }.

(** allpars[:-nh] (211): for nh = 0 it is allpars[:0] *)
Definition allBut (nh : nat) (l : list R) : list R :=
  if Nat.eqb nh 0 then [] else firstn (length l - nh) l.

Inductive outcome := Done (w : walker) | IndexError.

Section Boost.
Context (nh : nat) (fit : list R -> option (list R)) (scaleOf : list R -> R) (logLik : list R -> R).

(** ptry (218-223); [pars] is what the fitter found, [scaleOf] the getScale of the fitter thereafter *)
Definition ptry (w : walker) (pars : list R) : list R :=
  if Nat.eqb nh 0 then pars
  else if (last (w_fit w) 0 =? -1)%Z then pars ++ [scaleOf pars]
  else pars ++ [last (w_pars w) 0].

(** 202-230; [wlist] are the logL of the phantoms of the same kind, None if there is no list (dynamic models).
    wlist[-1] of an empty list raises IndexError. *)
Definition doBoost (wlist : option (list R)) (w : walker) : outcome :=
  match wlist with
  | None => Done w
  | Some l =>
      match rev l with
      | [] => IndexError
      | top :: _ =>
          if Rle_dec (w_logL w) top then Done w
          else match fit (allBut nh (w_pars w)) with
               | None => Done w
               | Some pars =>
                   let p := ptry w pars in
                   if Rlt_dec (w_logL w) (logLik p) then Done (mkW p (logLik p) (w_fit w)) else Done w
               end
      end
  end.
End Boost.
