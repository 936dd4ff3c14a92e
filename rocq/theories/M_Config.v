(** Model of how a NestedSampler or NestedSolver is put together: setProblem (NestedSampler.py:942-994),
    setErrorDistribution (NestedSampler.py:1000-1053, NestedSolver.py:227-256), setEngines
    (NestedSampler.py:1055-1109, NestedSolver.py:258-279), the constructors (NestedSampler.py:326-374,
    NestedSolver.py:187-195), the settings verbose, copymode and bestUpdate (NestedSampler.py:875-900),
    and initSample/initWalkers/setInitialEngine (486-504, 1113-1188) as far as the objects that they
    connect are concerned.
    Objects have a number as identity.  Data, models and limits are values that are handed through.
    The constructors of problems, distributions and engines are taken to succeed when they can be called
    with the given arguments. *)
From Coq Require Import String Ascii List ZArith Bool Arith Reals.
Import ListNotations.
Local Open Scope string_scope.

Inductive exn := ValueError | TypeError | KeyError.

(** what is passed as a problem, distribution or engine *)
Inductive arg (A : Type) := AName (s : string) | AInst (a : A) | AOther.
Arguments AName {A} s. Arguments AInst {A} a. Arguments AOther {A}.

(** str.lower, of ascii letters *)
Definition lowerA (c : ascii) : ascii :=
  let n := nat_of_ascii c in if andb (Nat.leb 65 n) (Nat.leb n 90) then ascii_of_nat (n + 32) else c.
Fixpoint lower (s : string) : string := match s with EmptyString => EmptyString | String c r => String (lowerA c) (lower r) end.

Inductive pkind := Classic | Errors | Multiple | Evidence | Order.
Record model := mkM { m_id : nat; m_dynamic : bool; m_modifiable : bool }.
Record problem := mkP { p_kind : pkind; p_model : option model; p_x : option nat; p_y : option nat; p_w : option nat; p_acc : option nat }.

Definition orElse {A} (a b : option A) : option A := match a with Some _ => a | None => b end.

(** setProblem (942-994).  EvidenceProblem.__init__ (EvidenceProblem.py:56) has no argument accuracy, with
    which it is called in line 991: TypeError. *)
Definition setProblem (name : arg problem) (m : option model) (x y w acc : option nat) : problem + exn :=
  match name with
  | AInst p => inl (mkP (p_kind p) (orElse m (p_model p)) (orElse x (p_x p)) (orElse y (p_y p)) (orElse w (p_w p)) (orElse acc (p_acc p)))
  | AOther => inr ValueError
  | AName s =>
      let s := lower s in
      if s =? "classic" then inl (mkP Classic m x y w acc)
      else if s =? "errors" then inl (mkP Errors m x y w acc)
      else if s =? "multiple" then inl (mkP Multiple m x y w acc)
      else if s =? "evidence" then inr TypeError
      else inr KeyError
  end.

(** myDistribution: ClassicProblem.py:146-150, ErrorsInXandYProblem.py:446-450, MultipleOutputProblem.py:167-171,
    EvidenceProblem.py:105-109, OrderProblem.py:105-106 *)
Definition myDistribution (k : pkind) : string :=
  match k with Classic => "gauss" | Errors => "gauss2d" | Multiple => "gauss" | Evidence => "model" | Order => "distance" end.

(** the dynamic part of the problem: the model is dynamic (Problem.isDynamic), for an OrderProblem it is
    the problem that is (OrderProblem.py:90-91): [m_dynamic] of a nominal model *)
Definition isDynamic (p : problem) : bool := match p_model p with Some m => m_dynamic m | None => false end.
Definition isModifiable (p : problem) : bool := match p_model p with Some m => m_modifiable m | None => false end.

(** myEngines: ClassicProblem.py:126-138, ErrorsInXandYProblem.py:434-438, MultipleOutputProblem.py:155-159,
    EvidenceProblem.py:91-103, OrderProblem.py:94-100 *)
Definition myEngines (p : problem) : list string :=
  let dyn := if isDynamic p then ["birth"; "death"] else [] in
  let str := if isModifiable p then ["struct"] else [] in
  match p_kind p with
  | Classic => ["galilean"; "chord"] ++ dyn ++ str
  | Errors => ["galilean"; "gibbs"; "chord"]
  | Multiple => ["galilean"; "chord"]
  | Evidence => dyn ++ str
  | Order => ["move"; "reverse"; "switch"; "loop"] ++ dyn
  end.

Inductive dkind := DGauss | DLaplace | DPoisson | DCauchy | DUniform | DExponential | DGauss2d | DModel | DBernoulli | DDistance.

(** a distribution: its number, kind and what its constructor was given *)
Record dist := mkD { d_id : nat; d_kind : dkind; d_scale : option R; d_power : option R; d_limits : option (R * R) }.

(** NestedSampler.setErrorDistribution 1023-1053; [id] is the number of a new object *)
Definition samplerDist (id : nat) (p : problem) (name : option (arg dist)) (limits : option (R * R)) (scale power : R) : dist + exn :=
  let byName s :=
    let s := lower s in
    let scaled k := inl (mkD id k (Some scale) None limits) in
    if s =? "gauss" then scaled DGauss
    else if s =? "laplace" then scaled DLaplace
    else if s =? "poisson" then inl (mkD id DPoisson None None None)
    else if s =? "cauchy" then scaled DCauchy
    else if s =? "uniform" then scaled DUniform
    else if s =? "exponential" then inl (mkD id DExponential (Some scale) (Some power) limits)
    else if s =? "gauss2d" then scaled DGauss2d
    else if s =? "model" then scaled DModel
    else if s =? "bernoulli" then inl (mkD id DBernoulli None None None)
    else inr ValueError in
  match name with
  | None => byName (myDistribution (p_kind p))
  | Some (AInst d) => inl d
  | Some AOther => inr ValueError
  | Some (AName s) => byName s
  end.

(** NestedSolver.setErrorDistribution 241-256; there is no argument limits *)
Definition solverDist (id : nat) (p : option problem) (name : option (arg dist)) : dist + exn :=
  let byName s := if lower s =? "distance" then inl (mkD id DDistance None None None) else inr ValueError in
  match name with
  | None => match p with Some p => byName (myDistribution (p_kind p)) | None => inr ValueError end
  | Some (AInst d) => inl d
  | Some AOther => inr ValueError
  | Some (AName s) => byName s
  end.

Inductive cls := Galilean | Chord | Birth | Death | Struct | Gibbs | Random | Step | Move | Reverse | Loop | Near | Shuffle | Switch.

(** NestedSampler.py:1072-1080 and NestedSolver.py:271-277 *)
Definition samplerDict (s : string) : option cls :=
  if s =? "galilean" then Some Galilean else if s =? "chord" then Some Chord else if s =? "birth" then Some Birth
  else if s =? "death" then Some Death else if s =? "struct" then Some Struct else if s =? "gibbs" then Some Gibbs
  else if s =? "random" then Some Random else if s =? "step" then Some Step else None.
Definition solverDict (s : string) : option cls :=
  if s =? "move" then Some Move else if s =? "reverse" then Some Reverse else if s =? "loop" then Some Loop
  else if s =? "near" then Some Near else if s =? "shuffle" then Some Shuffle else if s =? "switch" then Some Switch else None.

(** an engine: its class (None: an instance of the caller, of a class of its own), seed, and the numbers of
    the walkers, the distribution and the phantoms that it refers to *)
Record engine := mkE { e_class : option cls; e_seed : Z; e_walkers : nat; e_errdis : nat; e_phantoms : nat; e_verbose : nat }.

(** copyWalker after copymode is set (882-886) *)
Inductive copier := FromWalkers | FromPhantoms | FromDynamicPhantoms.

(** the sampler; [s_walkers] 0 when there are none yet, [s_next] the number for a new object, [s_drawn] how
    many integers have been drawn from rng *)
Record sampler := mkS {
  s_solver : bool; s_problem : problem; s_dist : dist; s_engines : list engine; s_walkers : nat; s_phantoms : nat;
  s_drawn : nat; s_next : nat; s_verbose : nat; s_initial : option nat (* errdis of initialEngine *);
  s_boost : bool; s_fitter : option nat; s_copier : copier }.

Section Draw.
Context (rnd : nat -> Z).            (* rng.randint( TWOP31 ), in order *)

(** the loop of setEngines 1088-1109 *)
Fixpoint makeEngines (dict : string -> option cls) (w d ph v : nat) (drawn : nat) (names : list (arg engine)) : (list engine * nat) + exn :=
  match names with
  | [] => inl ([], drawn)
  | AInst e :: rest =>
      match makeEngines dict w d ph v drawn rest with
      | inl (es, n) => inl (mkE (e_class e) (e_seed e) w d ph v :: es, n)
      | inr x => inr x
      end
  | AOther :: _ => inr ValueError
  | AName s :: rest =>
      match dict s with
      | None => inr ValueError
      | Some c =>
          match makeEngines dict w d ph v (S drawn) rest with
          | inl (es, n) => inl (mkE (Some c) (rnd drawn) w d ph v :: es, n)
          | inr x => inr x
          end
      end
  end.

(** setEngines (1055-1109); one string is a list of one *)
Definition setEngines (s : sampler) (names : option (list (arg engine))) : sampler + exn :=
  let ph := s_next s in
  let names := match names with Some l => l | None => map AName (myEngines (s_problem s)) end in
  match makeEngines (if s_solver s then solverDict else samplerDict) (s_walkers s) (d_id (s_dist s)) ph (s_verbose s) (s_drawn s) names with
  | inl (es, n) => inl (mkS (s_solver s) (s_problem s) (s_dist s) es (s_walkers s) ph n (S ph) (s_verbose s) (s_initial s) (s_boost s) (s_fitter s) (s_copier s))
  | inr x => inr x
  end.

(** setErrorDistribution after construction *)
Definition setDist (s : sampler) (name : option (arg dist)) (limits : option (R * R)) (scale power : R) : sampler + exn :=
  match (if s_solver s then
           match limits with Some _ => inr TypeError | None => solverDist (s_next s) (Some (s_problem s)) name end
         else samplerDist (s_next s) (s_problem s) name limits scale power) with
  | inl d => inl (mkS (s_solver s) (s_problem s) d (s_engines s) (s_walkers s) (s_phantoms s) (s_drawn s) (S (s_next s)) (s_verbose s) (s_initial s) (s_boost s) (s_fitter s) (s_copier s))
  | inr x => inr x
  end.

Inductive boostArg := BFalse | BTrue | BFitter (f : nat).

(** NestedSampler.__init__ (326-374); [first] the first number for a new object.  bestBoost is an attribute
    without special treatment in __setattr__ (887 is about bestUpdate), a fitter counts as true. *)
Definition newSampler (first : nat) (problem : option (arg problem)) (m : option model) (x y w acc : option nat)
    (distribution : option (arg dist)) (limits : option (R * R)) (boost : boostArg) (engines : option (list (arg engine))) (verbose : nat) : sampler + exn :=
  match setProblem (match problem with Some p => p | None => AName "classic" end) m x y w acc with
  | inr e => inr e
  | inl p =>
      match samplerDist first p distribution limits 1%R 2%R with
      | inr e => inr e
      | inl d =>
          setEngines (mkS false p d [] 0 0 0 (S first) verbose None (match boost with BFalse => false | _ => true end) None FromWalkers) engines
      end
  end.

(** NestedSolver.__init__ (187-195): a distribution is passed on to the constructor above, which calls
    setErrorDistribution with an argument limits that it does not have here: TypeError. *)
Definition newSolver (first : nat) (problem : arg problem) (distribution : option (arg dist)) (engines : option (list (arg engine))) (verbose : nat) : sampler + exn :=
  match setProblem problem None None None None None with
  | inr e => inr e
  | inl p =>
      match distribution with
      | Some _ => inr TypeError
      | None =>
          match solverDist (S first) (Some p) None with
          | inr e => inr e
          | inl d =>
              match setEngines (mkS true p d [] 0 0 0 (S (S first)) verbose None false None FromWalkers) engines with
              | inl s => setEngines s engines
              | inr e => inr e
              end
          end
      end
  end.

(** initSample (486-504) with initWalkers (1160-1183) and setInitialEngine (1130-1157) *)
Definition initSample (s : sampler) : sampler :=
  let w := s_next s in
  let n := match s_initial s with None => S (s_drawn s) | Some _ => s_drawn s end in
  mkS (s_solver s) (s_problem s) (s_dist s)
      (map (fun e => mkE (e_class e) (e_seed e) w (e_errdis e) (e_phantoms e) (e_verbose e)) (s_engines s))
      w (s_phantoms s) n (S w) (s_verbose s) (Some (d_id (s_dist s))) (s_boost s) (s_fitter s) (s_copier s).

(** the fitter of Engine.bestBoost (Engine.py:133-148), called in line 500; None: no boost, Some None:
    LevenbergMarquardtFitter, Some ( Some f ): f *)
Definition boostFitter (s : sampler) : option (option nat) := if s_boost s then Some (s_fitter s) else None.

(** verbose = v (897-900) *)
Definition setVerbose (s : sampler) (v : nat) : sampler :=
  mkS (s_solver s) (s_problem s) (s_dist s) (map (fun e => mkE (e_class e) (e_seed e) (e_walkers e) (e_errdis e) (e_phantoms e) v) (s_engines s))
      (s_walkers s) (s_phantoms s) (s_drawn s) (s_next s) v (s_initial s) (s_boost s) (s_fitter s) (s_copier s).

(** copymode = v (882-886) *)
Definition setCopymode (s : sampler) (v : nat) : sampler :=
  mkS (s_solver s) (s_problem s) (s_dist s) (s_engines s) (s_walkers s) (s_phantoms s) (s_drawn s) (s_next s) (s_verbose s) (s_initial s) (s_boost s) (s_fitter s)
      (if Nat.eqb v 1 then (if isDynamic (s_problem s) then FromDynamicPhantoms else FromPhantoms) else s_copier s).

(** bestUpdate = f (887-895); None: not a fitter *)
Definition setBestUpdate (s : sampler) (f : option nat) : sampler :=
  mkS (s_solver s) (s_problem s) (s_dist s) (s_engines s) (s_walkers s) (s_phantoms s) (s_drawn s) (s_next s) (s_verbose s) (s_initial s) (s_boost s) f (s_copier s).

(** the calls on a sampler *)
Inductive call :=
  | CEngines (names : option (list (arg engine)))
  | CDist (name : option (arg dist)) (limits : option (R * R)) (scale power : R)
  | CSample
  | CVerbose (v : nat)
  | CCopymode (v : nat)
  | CBestUpdate (f : option nat).

Definition run1 (s : sampler) (c : call) : sampler + exn :=
  match c with
  | CEngines names => setEngines s names
  | CDist name limits scale power => setDist s name limits scale power
  | CSample => inl (initSample s)
  | CVerbose v => inl (setVerbose s v)
  | CCopymode v => inl (setCopymode s v)
  | CBestUpdate f => inl (setBestUpdate s f)
  end.

(** one call after the other, until one raises *)
Fixpoint run (s : sampler) (cs : list call) : sampler + exn :=
  match cs with
  | [] => inl s
  | c :: r => match run1 s c with inl s' => run s' r | inr x => inr x end
  end.
End Draw.
