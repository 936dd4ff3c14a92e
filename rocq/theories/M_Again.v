(** Model of NestedSampler.sample as a whole (NestedSampler.py:392-492), of what it leaves in the sampler, and of a second call of it.  The
    loop is that of M_Nested; the first walkers, which are made anew in every call (1160-1182), and the random choices are arguments.
    Reports, plots and the parameters of the model are left out. *)
From Coq Require Import List Arith Reals Bool.
From Verif Require Import M_Nested.
Import ListNotations.
Local Open Scope R_scope.

(** The attributes of the sampler that live on: samples, with its logZ (SampleList.py:124), and iteration *)
Record sampler := mkSam { sam_samples : slist; sam_logZ : R; sam_iter : nat }.
(** 362, 374 and SampleList.py:121-129 *)
Definition newSampler : sampler := mkSam sl_empty 0 0.
(** 423-438: for a linear model nothing is explored, and then the iteration is not set to 0 either; the samples are not made anew *)
Definition restart (linear : bool) (sam : sampler) (ws : list nwalker) (low : R) : nstate :=
  mkST ws (sam_samples sam) None 0 (ln (1 - exp (- 1 / INR (length ws)))) low (if linear then sam_iter sam else 0) 0.
(** 392-492; None: an exception, or random choices missing.  473 sets another attribute, LogZ, of the samples. *)
Definition sample (linear : bool) (minIter : nat) (maxIter : option nat) (tolerance end_ : R) (worst : nat) (maxsize : option nat)
    (ws : list nwalker) (low : R) (os : list oracle) (sam : sampler) : option (option R * sampler) :=
  match ns_loop minIter maxIter tolerance end_ worst maxsize os (restart linear sam ws low) with
  | Some (s, true) =>
      match ns_collect s with
      | Some s' => Some (st_logZ s', mkSam (sl_normalize (st_samples s')) (sam_logZ sam) (st_iter s'))
      | None => None
      end
  | _ => None
  end.
(** SampleList.py:162-163 *)
Definition listEvidence (sam : sampler) : R := sam_logZ sam / ln 10.
