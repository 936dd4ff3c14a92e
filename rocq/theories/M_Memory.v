(** Model of which arrays of parameters are shared, and which are written to, in a nested sampler: the constructor and the copy of a walker
    (Walker.py:98-119), the sample that is made of it (Walker.py:121-140), WalkerList.setWalker and copy (WalkerList.py:103-147), Engine.setWalker
    (Engine.py:153-187) with the phantoms that are stored, and the arrays param, ptry, pedge in GibbsEngine.py:102-172, StepEngine.py:102-184,
    RandomEngine.py:102-171, ChordEngine.py:128-280 and GalileanEngine.py:119-240.  Numpy arrays are objects with an address.  Simplified: which
    values are tried and whether they are accepted are arguments; of the walkers only allpars is left; the phantoms are not weeded; nuisance
    parameters are left out. *)
From Coq Require Import List Arith Reals Bool.
From Verif Require Import M_Order.
Import ListNotations.

(** arrays by their address; the array of each walker, of each phantom, and of each sample with the number of model parameters *)
Record mem := mkMem { arrs : list (list R); walks : list nat; phants : list nat; samps : list (nat * nat) }.
Definition read (m : mem) (a : nat) : list R := nth a (arrs m) [].
(** a new array *)
Definition alloc (m : mem) (l : list R) : mem * nat := (mkMem (arrs m ++ [l]) (walks m) (phants m) (samps m), length (arrs m)).
(** a[i] = v, for each of ws *)
Definition write1 (m : mem) (a : nat) (iv : nat * R) : mem := mkMem (upd a (upd (fst iv) (snd iv) (read m a)) (arrs m)) (walks m) (phants m) (samps m).
Definition write (m : mem) (a : nat) (ws : list (nat * R)) : mem := fold_left (fun m iv => write1 m a iv) ws m.
(** WalkerList.setWalker (103-122) at kw, or at the end when the call has append, and phantoms.storeItems (Engine.py:185-187) of the walker with array a *)
Definition putWalker (m : mem) (app : bool) (kw a : nat) : mem :=
  mkMem (arrs m) (if app then walks m ++ [a] else upd kw a (walks m)) (phants m ++ [a]) (samps m).
(** Engine.setWalker without a walker (175-177): a new Walker has a copy of the array (Walker.py:99) *)
Definition setNew (m : mem) (app : bool) (kw a : nat) : mem := let '(m, b) := alloc m (read m a) in putWalker m app kw b.
(** Engine.setWalker with a walker (178-180): the array itself; the one that walker.copy() makes is dropped *)
Definition setSame (m : mem) (app : bool) (kw a : nat) : mem := putWalker m app kw a.

(** One round of the loop of GibbsEngine (128-172) for parameter c, with the values that are tried.  Registers: param *)
Definition gibbsStep (app : bool) (kw : nat) (s : mem * nat) (d : nat * list R * bool) : mem * nat :=
  let '(m, param) := s in
  let '(c, vs, ok) := d in
  let save := nth c (read m param) 0%R in
  let '(m, ptry) := alloc m (read m param) in
  let m := write m ptry (map (fun v => (c, v)) vs) in
  if ok then (setNew m app kw ptry, ptry) else (write m param [(c, save)], param).
(** One round of the loop of StepEngine (127-181) *)
Definition stepStep (app : bool) (kw : nat) (s : mem * nat) (d : list (nat * R) * bool) : mem * nat :=
  let '(m, param) := s in
  let '(m, ptry) := alloc m (read m param) in
  let m := write m ptry (fst d) in
  if snd d then (setNew m app kw ptry, ptry) else (m, param).
(** RandomEngine (122-137): param stays, and the first success is the end *)
Fixpoint randomLoop (app : bool) (kw : nat) (m : mem) (param : nat) (ds : list (list (nat * R) * bool)) : mem :=
  match ds with
  | [] => m
  | d :: ds =>
      let '(m, ptry) := alloc m (read m param) in
      let m := write m ptry (fst d) in
      if snd d then setNew m app kw ptry else randomLoop app kw m param ds
  end.
(** One trial of ChordEngine (210-260); ptry is the same array all the time.  Registers: param, ptry *)
Definition chordStep (app : bool) (kw : nat) (s : mem * nat * nat) (d : list (nat * R) * bool) : mem * nat * nat :=
  let '(m, param, ptry) := s in
  let m := write m ptry (fst d) in
  if snd d then let '(m, param) := alloc m (read m ptry) in (setNew m app kw ptry, param, ptry) else (m, param, ptry).
(** One round of the loop of GalileanEngine (151-216).  mirror: the values of the middle and of the edge, when it mirrors.  Registers: allpars, ptry *)
Definition galStep (app : bool) (kw : nat) (s : mem * nat * nat) (d : option (list (nat * R) * list (nat * R)) * list (nat * R) * bool) : mem * nat * nat :=
  let '(m, allpars, ptry) := s in
  let '(mirror, ws, ok) := d in
  let m := match mirror with
    | None => m
    | Some (mid, edge) => let m := write m ptry mid in let '(m, pedge) := alloc m (read m allpars) in write m pedge edge
    end in
  let m := write m ptry ws in
  if ok then let '(m, allpars) := alloc m (read m ptry) in (setSame m app kw allpars, allpars, ptry) else (m, allpars, ptry).

Inductive engine :=
| Gibbs (ds : list (nat * list R * bool)) | Step (ds : list (list (nat * R) * bool)) | Random (ds : list (list (nat * R) * bool))
| Chord (ds : list (list (nat * R) * bool)) | Galilean (ds : list (option (list (nat * R) * list (nat * R)) * list (nat * R) * bool)).
(** execute; None: IndexError of self.walkers[kw].  All work on a copy of the walker *)
Definition execute (m : mem) (kw : nat) (app : bool) (e : engine) : option mem :=
  match nth_error (walks m) kw with
  | None => None
  | Some a =>
      let '(m, param) := alloc m (read m a) in
      Some match e with
      | Gibbs ds => fst (fold_left (gibbsStep app kw) ds (m, param))
      | Step ds => fst (fold_left (stepStep app kw) ds (m, param))
      | Random ds => randomLoop app kw m param ds
      | Chord ds => let '(m, ptry) := alloc m (read m param) in fst (fst (fold_left (chordStep app kw) ds (m, param, ptry)))
      | Galilean ds => let '(m, ptry) := alloc m (read m param) in fst (fst (fold_left (galStep app kw) ds (m, param, ptry)))
      end
  end.
(** toSample (Walker.py:121-140) of walker kw, and samples.add (NestedSampler.py:780-781): slices of the array, that is views of it *)
Definition collect (m : mem) (kw nm : nat) : option mem :=
  match nth_error (walks m) kw with None => None | Some a => Some (mkMem (arrs m) (walks m) (phants m) (samps m ++ [(a, nm)])) end.
Definition samplePars (m : mem) (s : nat * nat) : list R := firstn (snd s) (read m (fst s)).
Definition sampleHyper (m : mem) (s : nat * nat) : list R := skipn (snd s) (read m (fst s)).
(** WalkerList.copy (124-147) *)
Definition copyWalker (m : mem) (src des : nat) : option mem :=
  match nth_error (walks m) src with
  | None => None
  | Some a => if des <? length (walks m) then let '(m, b) := alloc m (read m a) in Some (mkMem (arrs m) (upd des b (walks m)) (phants m) (samps m)) else None
  end.
(** what a sampler does to its walkers, in any order *)
Inductive op := Run (kw : nat) (app : bool) (e : engine) | Collect (kw nm : nat) | Copy (src des : nat).
Definition apply (m : mem) (o : op) : option mem :=
  match o with Run kw app e => execute m kw app e | Collect kw nm => collect m kw nm | Copy s d => copyWalker m s d end.
Fixpoint applyAll (m : mem) (os : list op) : option mem :=
  match os with [] => Some m | o :: os => match apply m o with None => None | Some m => applyAll m os end end.
