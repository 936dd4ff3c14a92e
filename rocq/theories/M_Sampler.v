(** What a sampler tells about itself: walkers turned into samples (Walker.py:121-159, Sample.py:76-146), the attributes of
    NestedSampler.py:902-938, the expected number of iterations (NestedSampler.py:700-707), the choice of plots (554-582), the heading
    and progress of the reports (585-644); the reports and journeys of an engine (Engine.py:299-380) and the step out of
    ChordEngine.py:287-314.  Simplified: real numbers; texts are not formatted; only what is printed and when. *)
From Coq Require Import String List Reals ZArith Bool Lia.
From Verif Require Import M_Nested.
Import ListNotations.
Local Open Scope R_scope.

(** ** Walkers and samples *)

(** Walker.py:92-114 *)
Record walker := mkW { w_id : Z; w_parent : Z; w_start : Z; w_allpars : list R; w_fit : option (list Z); w_logL : R; w_prior : R }.
(** Sample.py:94-118; nuisance and hyper are attributes that may not be there *)
Record sample := mkSm { s_id : Z; s_parent : Z; s_start : Z; s_pars : list R; s_nuis : option (list R); s_hyper : option (list R);
                        s_fit : option (list Z); s_logL : R; s_logW : R }.

Section Problem.
  (** np: the parameters of the problem, model: those of its model, if there is one *)
  Context (np : nat) (model : option nat).
  (** Walker.py:121-140 *)
  Definition toSample (w : walker) (logW : R) : sample :=
    let nm := match model with Some nm => nm | None => np end in
    let pars := firstn nm (w_allpars w) in
    let hyper := if (np <? length (w_allpars w))%nat then Some (skipn np (w_allpars w)) else None in
    let nuis := if (nm <? np)%nat then Some (skipn nm (firstn np (w_allpars w))) else None in
    mkSm (w_id w) (w_parent w) (w_start w) pars nuis hyper (w_fit w) (w_logL w + w_prior w) logW.
  (** Walker.__getattr__ 147-155; None: AttributeError as there is no model; the inner None is python's None *)
  Definition walkerParameters (w : walker) : option (list R) :=
    match model with Some nm => Some (firstn nm (w_allpars w)) | None => None end.
  Definition walkerHypars (w : walker) : option (option (list R)) :=
    match model with
    | Some nm => Some (if (nm <? length (w_allpars w))%nat then Some (skipn nm (w_allpars w)) else None)
    | None => None
    end.
End Problem.
(** Sample.__getattr__ 132-142; hypars: None is an AttributeError *)
Definition sampleWeight (s : sample) : R := exp (s_logW s).
Definition sampleAllpars (s : sample) : list R :=
  s_pars s ++ match s_nuis s with Some n => n | None => [] end ++ match s_hyper s with Some h => h | None => [] end.
Definition sampleHypars (s : sample) : option (list R) := s_hyper s.

(** ** The sampler *)

(** NestedSampler.getMaxIter 700-707, with the state of M_Nested *)
Definition getMaxIter (minIter : nat) (maxIter : option nat) (tolerance end_ : R) (worst : nat) (s : nstate) : R :=
  let maxi := if Rlt_dec (st_logdZ s) tolerance then INR (st_iter s) else end_ * INR (length (st_walkers s)) * st_info s / INR worst in
  let maxi := Rmax (INR minIter) maxi in
  match maxIter with None => maxi | Some m => Rmin maxi (INR m) end.

(** NestedSampler.__getattr__ 902-938 for the names that are computed from logZ and info; what is not known ends without a return: None *)
Inductive value := Number (x : R) | Other (name : string) | NoneValue.
Definition others : list string :=
  ["ensemble"; "xdata"; "model"; "ydata"; "weights"; "worst"; "information"; "parameters"; "stdevs"; "standardDeviations"; "hypars"; "stdevHypars"; "scale";
   "stdevScale"; "modelfit"; "yfit"]%string.
Definition samplerAttribute (logZ info : R) (ensemble : nat) (name : string) : value :=
  let prec := sqrt (Rmax info 0 / INR ensemble) in
  if (name =? "evidence")%string then Number (logZ / ln 10)
  else if (name =? "logZprecision")%string then Number prec
  else if (name =? "precision")%string then Number (prec / ln 10)
  else if existsb (String.eqb name) others then Other name
  else NoneValue.

(** the argument plot *)
Inductive plotarg := PStr (s : string) | PBool (b : bool) | PNone.
(** doIterPlot 554-570 and doLastPlot 572-582 *)
Definition doIterPlot (p : plotarg) : nat :=
  match p with
  | PStr s => if (s =? "iter")%string || (s =? "all")%string then 1 else if (s =? "test")%string then 2 else 0
  | _ => 0
  end%nat.
Definition doLastPlot (p : plotarg) : bool :=
  match p with PStr s => (s =? "last")%string || (s =? "all")%string | PBool b => b | PNone => false end.

(** initReport 596-605: each name of a hyperparameter with whether it is called unknown *)
Fixpoint hyperNames (names : list string) (np : Z) (fit : list Z) : list (string * bool) :=
  match names with
  | [] => []
  | n :: r => (n, existsb (Z.eqb np) fit) :: hyperNames r (np - 1) fit
  end.
(** initReport 615-616; None: IndexError, as the list is empty.  fuel: the length is enough *)
Fixpoint tailLoop (fuel : nat) (fit : list Z) (tail : nat) : nat :=
  match fuel with
  | O => tail
  | S f => if (nth (length fit - 1 - tail) fit 0 <? 0)%Z && (tail + 1 <? length fit)%nat then tailLoop f fit (S tail) else tail
  end.
Definition reportTail (fit : list Z) : option nat := match fit with [] => None | _ => Some (tailLoop (length fit) fit 0) end.
(** 625-626: the names above the last columns *)
Definition tailNames (names : list string) (tail : nat) : list (option string) := map (nth_error names) (seq 0 tail).

(** iterReport 633-642: what is printed in an iteration *)
Inductive printed := Nothing | Mark (newline : bool) | Line.
Definition iterReport (verbose repiter iteration : nat) : printed :=
  if (3 <=? verbose)%nat || ((1 <=? verbose)%nat && (iteration mod repiter =? 0)%nat) then
    if (verbose =? 1)%nat then Mark ((iteration / repiter) mod 50 =? 49)%nat else Line
  else Nothing.

(** ** Engines *)

(** Engine.py:74-78 and 334-360 *)
Inductive event := Call | Success | Reject | Failed | Best.
Record counts := mkC { c_success : nat; c_reject : nat; c_failed : nat; c_best : nat; c_calls : nat }.
Definition report (e : event) (c : counts) : counts :=
  match e with
  | Success => mkC (S (c_success c)) (c_reject c) (c_failed c) (c_best c) (c_calls c)
  | Reject => mkC (c_success c) (S (c_reject c)) (c_failed c) (c_best c) (c_calls c)
  | Failed => mkC (c_success c) (c_reject c) (S (c_failed c)) (c_best c) (c_calls c)
  | Best => mkC (c_success c) (c_reject c) (c_failed c) (S (c_best c)) (c_calls c)
  | Call => mkC (c_success c) (c_reject c) (c_failed c) (c_best c) (S (c_calls c))
  end.
Definition reports (es : list event) (c : counts) : counts := fold_left (fun c e => report e c) es c.
(** successRate 370-380; the attribute save; None: ZeroDivisionError, save stays as it was *)
Definition trials (c : counts) : nat := (c_success c + c_reject c + c_failed c)%nat.
Definition successRate (c : counts) (save : option (nat * nat)) : option R * (nat * nat) :=
  let sv := match save with Some s => s | None => (0, 0)%nat end in
  let den := INR (trials c) - INR (snd sv) in
  if Req_EM_T den 0 then (None, sv)
  else (Some (100 * (INR (c_success c) - INR (fst sv)) / den), (c_success c, trials c)).

(** numpy.sqrt( numpy.sum( v * v ) ) *)
Definition norm (v : list R) : R := sqrt (fold_right (fun x s => x * x + s) 0 v).
(** startJourney 299-309, calcJourney 311-320, reportJourney 322-326; None: not started *)
Definition journey := option (R * R).
Definition startJourney (u : list R) : journey := Some (norm u, 0).
Definition calcJourney (d : list R) (j : journey) : journey := match j with Some (s, l) => Some (s, l + norm d) | None => None end.
Definition reportJourney (j : journey) : R * R := match j with Some p => p | None => (0, 0) end.

(** ChordEngine.stepOut 295-312; L the log likelihood at usav + vel * t; None: more than fuel steps *)
Section StepOut.
  Context (L : R -> R) (low tmax : R).
  Fixpoint stepLoop (fuel : nat) (t : R) : option R :=
    match fuel with
    | O => None
    | S f => if Rle_dec (L t) low then Some t
             else if Rle_dec (Rabs tmax) (Rabs (t * 2)) then Some tmax
             else stepLoop f (t * 2)
    end.
  Definition stepOut (fuel : nat) (t : R) : option R := stepLoop fuel (if Req_EM_T t 0 then 1 / 100 * tmax else t).
End StepOut.
