(** Model of Explorer.py:72-236 and 282-314, and of PhantomSampler.py:106-265.

    An engine is any function from the number of the walker, the limit and the walkers to new walkers and a number of moves
    (Engine.execute); what holds for engines is a hypothesis of the theorems.  Left out: what is printed for verbose >= 4 and the
    checks made then, and that the walkers of an ExplorerThread change at the same time. *)
From Coq Require Import List Arith ZArith Reals Bool.
From Verif Require Import M_Order M_Nested.
Import ListNotations.
Local Open Scope R_scope.

(** *** Explorer *)
(** An engine: execute( kw, lowLhood, append ), and its attribute slow, if any *)
Record engine : Type := mkE { e_slow : option nat; e_exec : nat -> R -> bool -> list nwalker -> list nwalker * nat }.

(** selEngines 211-225; for an engine with slow = 0 the remainder raises ZeroDivisionError: None *)
Fixpoint selEngines (iteration : nat) (es : list engine) : option (list engine) :=
  match es with
  | [] => Some []
  | e :: r =>
      match selEngines iteration r with
      | None => None
      | Some l => match e_slow e with
                  | None => Some (e :: l)
                  | Some O => None
                  | Some s => Some (if (Nat.modulo iteration s =? 0)%nat then e :: l else l)
                  end
      end
  end.
(** __init__ 92-96, explore 111, allEngines 227-236: a selection is made only when some engine has slow *)
Definition selectEngines (iteration : nat) (es : list engine) : option (list engine) :=
  if existsb (fun e => match e_slow e with Some _ => true | None => false end) es then selEngines iteration es else Some es.

(** One pass of the while loop 178-199: all engines, as permuted *)
Fixpoint runEngines (es : list engine) (kw : nat) (low : R) (append : bool) (ws : list nwalker) (moves : nat) : list nwalker * nat :=
  match es with
  | [] => (ws, moves)
  | e :: r => let '(ws', mv) := e_exec e kw low append ws in runEngines r kw low append ws' (moves + mv)
  end.

(** What the while loop 176-201 leaves: walkers, moves, trials, and whether update was set *)
Record explored : Type := mkX { x_ws : list nwalker; x_moves : nat; x_trials : nat; x_set : bool }.
(** [perm t] is the permutation of the t-th pass; None: not done within fuel passes *)
Fixpoint passes (fuel : nat) (perm : nat -> list engine) (maxmoves maxtrials : R) (kw : nat) (low : R) (append : bool) (x : explored)
  : option explored :=
  if Rlt_dec (INR (x_moves x)) maxmoves then
    if Rlt_dec (INR (x_trials x)) maxtrials then
      match fuel with
      | O => None
      | S f =>
          let es := perm (x_trials x) in
          let '(ws, mv) := runEngines es kw low append (x_ws x) (x_moves x) in
          passes f perm maxmoves maxtrials kw low append
                 (mkX ws mv (S (x_trials x)) (orb (x_set x) (match es with [] => false | _ => true end)))
      end
    else Some x
  else Some x.

(** exploreWalker 145-209.  [npars] is len( walker.allpars ), [check] is logLcheck (true: no exception).
    Raised: IndexError, the exceptions of logLcheck, UnboundLocalError of update, or the Exception of line 207. *)
Inductive outcome (A : Type) : Type := Done (a : A) | Raised | NotYet.
Arguments Done {A}. Arguments Raised {A}. Arguments NotYet {A}.
Definition exploreWalker (fuel : nat) (perm : nat -> list engine) (check : nwalker -> bool) (npars : nwalker -> nat)
    (maxtrials rate : R) (append : bool) (kw : nat) (low : R) (ws : list nwalker) : outcome (list nwalker) :=
  match nth_error ws kw with
  | None => Raised
  | Some w =>
      match passes fuel perm (INR (npars w) / rate) (maxtrials / rate) kw low append (mkX ws 0 0 false) with
      | None => NotYet
      | Some x =>
          if (if (x_moves x =? 0)%nat then match nth_error (x_ws x) kw with Some w' => check w' | None => false end else true)
          then if x_set x then
                 match nth_error (x_ws x) (if append then length (x_ws x) - 1 else kw)%nat with
                 | None => Raised
                 | Some u => if Rlt_dec (nw_logL u) low then Raised else Done (x_ws x)
                 end
               else Raised
          else Raised
      end
  end.

(** *** Threads: explore 119-143.  A report is the numbers of SUCCESS, REJECT, FAILED, BEST and NCALLS; the engines of a thread
    are copies with a report of their own, starting at 0 *)
Record report : Type := mkRep { r_success : nat; r_reject : nat; r_failed : nat; r_best : nat; r_calls : nat }.
(** 133-138 *)
Definition addReport (e t : report) : report :=
  let nc := (r_success t + r_reject t + r_failed t + r_best t)%nat in
  mkRep (r_success e + r_success t) (r_reject e + r_reject t) (r_failed e + r_failed t) (r_best e + r_best t) (r_calls e + nc).
(** threadErrors (37) is a list of the module: one thread after the other may add to it (312-314); any item raises (140-143).
    The result is whether an exception was raised, and the list *)
Definition exploreThreads (errors : list nat) (new : list (option nat)) : bool * list nat :=
  let all := errors ++ flat_map (fun e => match e with Some w => [w] | None => [] end) new in
  (match all with [] => false | _ => true end, all).

(** *** PhantomSampler *)
(** __init__ 206-209: the step, or ValueError *)
Definition setStep (step : Z) : option Z := if (step <=? 10)%Z then Some step else None.
(** worst 226-230, for a step that is not negative *)
Definition worstOf (step : nat) (ws : list nwalker) : nat := Nat.div (length ws * step) 100.

(** The walker list after del( walkers[k] ) *)
Definition del {A : Type} (k : nat) (l : list A) : list A := firstn k l ++ skipn (S k) l.
(** walkers[k] with a negative k counts from the end *)
Definition pyIndex (n : nat) (k : Z) : nat := if (k <? 0)%Z then Z.to_nat (Z.of_nat n + k) else Z.to_nat k.

(** The random choices of an iteration: the number below n of randint( n ) at length n, and of the walker to explore; what
    explorer.explore( [kw] ) makes of the walkers, at each call *)
Record poracle : Type := mkPO { po_start : nat -> nat -> nat -> nat;
                                po_explore : nat -> R -> nat -> list nwalker -> outcome (list nwalker);
                                po_del : nat -> nat -> nat }.

(** The first loop of updateWalkers, 253-256; randint( worst, ensemble ) raises when there is nothing to choose *)
Fixpoint fillUp (fuel : nat) (o : poracle) (call : nat) (low : R) (init worst : nat) (ws : list nwalker) : outcome (list nwalker) :=
  if (length ws <=? init)%nat then
    match fuel with
    | O => NotYet
    | S f =>
        if (worst <? length ws)%nat then
          match po_explore o call low (po_start o call worst (length ws)) ws with
          | Done ws' => fillUp f o (S call) low init worst ws'
          | Raised => Raised
          | NotYet => NotYet
          end
        else Raised
    end
  else Done ws.

(** The second loop, 261-265 *)
Fixpoint trim (fuel : nat) (o : poracle) (call : nat) (init step : nat) (ws : list nwalker) : outcome (list nwalker) :=
  if (init <? length ws)%nat then
    match fuel with
    | O => NotYet
    | S f =>
        let ks := (Z.of_nat init - Z.of_nat step)%Z in
        let n := (Z.of_nat (length ws) - ks - 1)%Z in
        if (n <=? 0)%Z then Raised                               (* randint( n ): ValueError *)
        else trim f o (S call) init step (del (pyIndex (length ws) (ks + Z.of_nat (po_del o call (Z.to_nat n)))) ws)
    end
  else Done ws.

(** updateWalkers 237-265 *)
Definition updateWalkers (fuel : nat) (o : poracle) (low : R) (init step worst : nat) (ws : list nwalker) : outcome (list nwalker) :=
  match fillUp fuel o 0 low init worst (skipn worst ws) with
  | Done ws1 => trim (length ws1) o 0 init step ws1
  | Raised => Raised
  | NotYet => NotYet
  end.

(** One pass of NestedSampler.sample 446-461 as it concerns the walkers.  With worst = 0, lowLhood is walkers[-1].logL and
    updateEvidence raises: its variable logWeight is not set (line 785).  The result: lowLhood and the walkers *)
Definition pIteration (fuel : nat) (o : poracle) (init step : nat) (ws : list nwalker) : outcome (R * list nwalker) :=
  let srt := nsort ws in
  let worst := worstOf step srt in
  if (worst =? 0)%nat then Raised
  else match nth_error srt (worst - 1) with
       | None => Raised
       | Some w => match updateWalkers fuel o (nw_logL w) init step worst srt with
                   | Done ws' => Done (nw_logL w, ws')
                   | Raised => Raised
                   | NotYet => NotYet
                   end
       end.
(** Several: all values of lowLhood, and the walkers *)
Fixpoint pRun (fuel : nat) (os : list poracle) (init step : nat) (ws : list nwalker) : outcome (list R * list nwalker) :=
  match os with
  | [] => Done ([], ws)
  | o :: r => match pIteration fuel o init step ws with
              | Done (low, ws') => match pRun fuel r init step ws' with
                                   | Done (lows, ws'') => Done (low :: lows, ws'')
                                   | Raised => Raised
                                   | NotYet => NotYet
                                   end
              | Raised => Raised
              | NotYet => NotYet
              end
  end.
