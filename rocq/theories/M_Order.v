(** Model of the order engines and of the ensemble they act on.
    Source directory: /repo/BayesicFitting/source *)
From Coq Require Import List Arith ZArith Bool.
Import ListNotations.

(** ** numpy helpers *)

(** numpy slice l[a:b] for 0 <= a (numpy semantics: bounds are clamped). *)
Definition slice {A} (a b : nat) (l : list A) : list A :=
  firstn (b - a) (skipn a l).

(** numpy.roll( l, k ) for 0 <= k <= len( l ): the last k items come first.
    The engines only call it with k = randint( len ) < len. *)
Definition roll {A} (k : nat) (l : list A) : list A :=
  skipn (length l - k) l ++ firstn (length l - k) l.

(** numpy.roll( l, -k ) for 0 <= k <= len( l ). *)
Definition rollneg {A} (k : nat) (l : list A) : list A :=
  skipn k l ++ firstn k l.

(** l[i] = x *)
Fixpoint upd {A} (i : nat) (x : A) (l : list A) : list A :=
  match l, i with
  | [], _ => []
  | _ :: r, 0 => x :: r
  | y :: r, S j => y :: upd j x r
  end.

(** ptry[:t] = ptry[t-1::-1], t >= 1.
    ReverseEngine.py:92, LoopEngine.py:153.
    (numpy buffers overlapping assignments; the start t-1 is clamped to the last item.) *)
Definition reverse_head {A} (t : nat) (l : list A) : list A :=
  rev (firstn t l) ++ skipn t l.

(** ** Proposals: the list that is tried, as a function of the random draws *)

(** MoveEngine.py:92-104, body of the trial loop. *)
Definition move_ptry {A} (src des t : nat) (param : list A) : list A :=
  let kln := src + t in
  if src <? des then
    slice kln des param ++ slice src kln param ++ skipn des param ++ firstn src param
  else
    skipn kln param ++ firstn des param ++ slice src kln param ++ slice des src param.

(** MoveEngine.py:90-91: the first trial length, g the geometric draw. *)
Definition move_t0 (np src des g : nat) : nat :=
  Nat.min g (if src <? des then des - src else np - src).

(** ReverseEngine.py:89-92 *)
Definition reverse_ptry {A} (src t : nat) (param : list A) : list A :=
  reverse_head t (skipn src param ++ firstn src param).

(** ReverseEngine.py:85, ShuffleEngine.py:100 *)
Definition reverse_t0 (np g : nat) : nat := 2 + Nat.min g (np / 2).

(** ShuffleEngine.py:103-105; [perm] is what rng.permutation returns for its argument. *)
Definition shuffle_ptry {A} (perm : list A -> list A) (src t : nat) (param : list A) : list A :=
  let ent := src + t in
  let p := roll src param in
  perm (firstn ent p) ++ skipn ent p.

(** SwitchEngine.py:101-107; None is an IndexError (cannot occur for draws in range). *)
Definition switch_ptry {A} (src des : nat) (param : list A) : option (list A) :=
  match nth_error param src, nth_error param des with
  | Some a, Some b => Some (upd des a (upd src b param))
  | _, _ => None
  end.

(** LoopEngine.py:114-115, 153-155. [t] is the value of the loop variable at the
    break; the geometric crossing test that selects it (118-147) is left free:
    every t in range( 2, np - 1 ) is allowed. *)
Definition loop_ptry {A} (ks t : nat) (param : list A) : list A :=
  rollneg ks (reverse_head t (roll ks param)).

(** NearEngine.py:110-111, 142-146. [kmin] is the position of the nearest
    neighbour; how it is found (117-135) is left free. None is an IndexError. *)
Definition near_ptry {A} (ks kmin : nat) (param : list A) : option (list A) :=
  let p := roll ks param in
  match nth_error p kmin with
  | Some pkm => Some (rollneg ks (firstn kmin p ++ skipn (S kmin) p ++ [pkm]))
  | None => None
  end.

(** StartOrderEngine.py:93 *)
Definition startorder_ptry {A} (perm : list A -> list A) (param : list A) : list A :=
  perm param.

(** ** The trial loop shared by Move, Reverse and Shuffle *)

(** Outcome of executeOnce: the returned move count and the list handed to
    setWalker, if any. *)
Definition outcome (A : Type) : Type := (nat * option (list A))%type.

Section Trial.
  Context {A : Type}.
  (** errdis.logLikelihood( problem, . ) *)
  Variable lik : list A -> Z.
  Variable low : Z.
  (** the list tried with trial length t *)
  Variable propose : nat -> list A.
  (** rng.randint( t ) at the i-th trial *)
  Variable rnd : nat -> nat -> nat.

  (** [while t > tmin : ... t = rng.randint( t )]; [ret] is what is returned for
      the final t when the loop ends without acceptance.
      MoveEngine.py:92-128 (tmin = 0, ret t = t);
      ReverseEngine.py:87-113 (tmin = 1, ret t = t);
      ShuffleEngine.py:102-126 (tmin = 1, ret t = 0).
      None: fuel exhausted (shown impossible for fuel > t). *)
  Fixpoint trial_loop (tmin : nat) (ret : nat -> nat) (fuel i t : nat) : option (outcome A) :=
    match fuel with
    | 0 => None
    | S f =>
        if tmin <? t then
          let ptry := propose t in
          if (low <=? lik ptry)%Z then Some (t, Some ptry)
          else trial_loop tmin ret f (S i) (rnd i t)
        else Some (ret t, None)
    end.
End Trial.

(** MoveEngine.executeOnce 79-128 (src <> des drawn in range; geometric draw g >= 1). *)
Definition move_once {A} (lik : list A -> Z) (low : Z) (rnd : nat -> nat -> nat)
    (src des g : nat) (param : list A) : option (outcome A) :=
  let t := move_t0 (length param) src des g in
  trial_loop lik low (fun t => move_ptry src des t param) rnd 0 (fun t => t) (S t) 0 t.

(** ReverseEngine.executeOnce 77-113 *)
Definition reverse_once {A} (lik : list A -> Z) (low : Z) (rnd : nat -> nat -> nat)
    (src g : nat) (param : list A) : option (outcome A) :=
  let t := reverse_t0 (length param) g in
  trial_loop lik low (fun t => reverse_ptry src t param) rnd 1 (fun t => t) (S t) 0 t.

(** ShuffleEngine.execute 78-126; the permutation drawn may differ per trial length. *)
Definition shuffle_once {A} (lik : list A -> Z) (low : Z) (rnd : nat -> nat -> nat)
    (perm : nat -> list A -> list A) (src g : nat) (param : list A) : option (outcome A) :=
  let t := reverse_t0 (length param) g in
  trial_loop lik low (fun t => shuffle_ptry (perm t) src t param) rnd 1 (fun _ => 0) (S t) 0 t.

(** SwitchEngine.executeOnce 79-127 *)
Definition switch_once {A} (lik : list A -> Z) (low : Z) (src des : nat) (param : list A)
  : option (outcome A) :=
  match switch_ptry src des param with
  | None => None
  | Some ptry => Some (if (low <=? lik ptry)%Z then (2, Some ptry) else (0, None))
  end.

(** LoopEngine.executeOnce 94-172; [cross] is the result of the search for a crossing
    edge: Some t at the break, None when the for loop runs out (147-149). *)
Definition loop_once {A} (lik : list A -> Z) (low : Z) (ks : nat) (cross : option nat)
    (param : list A) : option (outcome A) :=
  match cross with
  | None => Some (0, None)
  | Some t =>
      let ptry := loop_ptry ks t param in
      Some (if (low <=? lik ptry)%Z then (t, Some ptry) else (0, None))
  end.

(** NearEngine.executeOnce 85-165 *)
Definition near_once {A} (lik : list A -> Z) (low : Z) (ks kmin : nat) (param : list A)
  : option (outcome A) :=
  if kmin =? 1 then Some (0, None)
  else match near_ptry ks kmin param with
       | None => None
       | Some ptry => Some (if (low <=? lik ptry)%Z then (1, Some ptry) else (0, None))
       end.

(** StartOrderEngine.execute 72-99: no acceptance test. *)
Definition startorder_once {A} (perm : list A -> list A) (param : list A) : option (outcome A) :=
  Some (length param, Some (startorder_ptry perm param)).

(** OrderEngine.execute 66-93: repeat executeOnce until it returns t <> 0, at most
    maxtrials times. [once k w] is the k-th call on the current ensemble [w] and
    returns the new ensemble and t. *)
Fixpoint order_execute {W} (once : nat -> W -> W * nat) (trials k : nat) (w : W) : W * nat :=
  match trials with
  | 0 => (w, 0)
  | S n => let (w', t) := once k w in
           if t =? 0 then order_execute once n (S k) w' else (w', t)
  end.

(** ** The ensemble *)

(** Walker.py: the fields that matter here: id, allpars, logL. *)
Record walker (A : Type) : Type := mkW { wid : nat; wpars : list A; wlogL : Z }.
Arguments mkW {A}. Arguments wid {A}. Arguments wpars {A}. Arguments wlogL {A}.

(** WalkerList.setWalker 103-122: replace, or append with a fresh id (the counter). *)
Definition wl_setWalker {A} (count : nat) (ws : list (walker A)) (w : walker A) (index : nat)
  : nat * list (walker A) :=
  if index <? length ws then (count, upd index w ws)
  else (S count, ws ++ [mkW count (wpars w) (wlogL w)]).

(** Engine.setWalker 153-187 (checkBest and phantoms are bookkeeping elsewhere). *)
Definition eng_setWalker {A} (count : nat) (ws : list (walker A)) (kw : nat) (pars : list A)
    (logL : Z) : nat * list (walker A) :=
  let id := match nth_error ws kw with Some w => wid w | None => 0 end in
  wl_setWalker count ws (mkW id pars logL) kw.

(** The storing step of the order engines: [self.setWalker( walker.id, problem, ptry, Ltry )]
    with walker = self.walkers[kw].
    MoveEngine.py:81,115; ReverseEngine.py:79,103; ShuffleEngine.py:94,117;
    SwitchEngine.py:95,118; LoopEngine.py:107,166; NearEngine.py:100,158;
    StartOrderEngine.py:89,97. None: kw out of range (IndexError). *)
Definition order_store {A} (lik : list A -> Z) (count : nat) (ws : list (walker A)) (kw : nat)
    (stored : option (list A)) : option (nat * list (walker A)) :=
  match nth_error ws kw with
  | None => None
  | Some w => match stored with
              | None => Some (count, ws)
              | Some ptry => Some (eng_setWalker count ws (wid w) ptry (lik ptry))
              end
  end.

(** The storing step of the continuous engines:
    [update = len( self.walkers ) if append else kw; self.setWalker( update, ... )].
    ChordEngine.py:106-284, GalileanEngine.py:99-245, StepEngine.py:81-184,
    GibbsEngine.py:80-172, RandomEngine.py:80-171, BirthEngine.py:79-168,
    DeathEngine.py:82-154, StructureEngine.py:80-160. *)
Definition cont_store {A} (lik : list A -> Z) (append : bool) (count : nat)
    (ws : list (walker A)) (kw : nat) (stored : option (list A)) : nat * list (walker A) :=
  match stored with
  | None => (count, ws)
  | Some ptry =>
      let update := if append then length ws else kw in
      eng_setWalker count ws update ptry (lik ptry)
  end.

(** NestedSampler.py:391-484 [self.walkers.sort( key=lambda w: w.logL )]: an in-place stable
    sort on logL; identities travel with their walker. Insertion sort is used here
    (the stable sorted permutation is unique). *)
Fixpoint ins_walker {A} (w : walker A) (ws : list (walker A)) : list (walker A) :=
  match ws with
  | [] => [w]
  | v :: r => if (wlogL w <=? wlogL v)%Z then w :: v :: r else v :: ins_walker w r
  end.
Fixpoint sort_walkers {A} (ws : list (walker A)) : list (walker A) :=
  match ws with
  | [] => []
  | w :: r => ins_walker w (sort_walkers r)
  end.

(** WalkerList.copy 124-147: walker src is copied to position des, which keeps its id. *)
Definition copy_walker {A} (ws : list (walker A)) (src des : nat) : option (list (walker A)) :=
  match nth_error ws src, nth_error ws des with
  | Some s, Some d => Some (upd des (mkW (wid d) (wpars s) (wlogL s)) ws)
  | _, _ => None
  end.

(** WalkerList.addWalkers 93-100: ids 0..n-1. *)
Definition add_walkers {A} (lik : list A -> Z) (pars : list (list A)) : list (walker A) :=
  map (fun '(k, p) => mkW k p (lik p)) (combine (seq 0 (length pars)) pars).

(** ** Runs of an order problem *)

(** One event of a run: any engine with any draws on any walker, a sort, or a copy. *)
Inductive order_draw (A : Type) : Type :=
  | DMove (src des g : nat) (rnd : nat -> nat -> nat)
  | DReverse (src g : nat) (rnd : nat -> nat -> nat)
  | DShuffle (src g : nat) (perm : nat -> list A -> list A) (rnd : nat -> nat -> nat)
  | DSwitch (src des : nat)
  | DLoop (ks : nat) (cross : option nat)
  | DNear (ks kmin : nat)
  | DStart (perm : list A -> list A).
Arguments DMove {A}. Arguments DReverse {A}. Arguments DShuffle {A}. Arguments DSwitch {A}.
Arguments DLoop {A}. Arguments DNear {A}. Arguments DStart {A}.

Definition run_draw {A} (lik : list A -> Z) (low : Z) (d : order_draw A) (param : list A)
  : option (outcome A) :=
  match d with
  | DMove src des g rnd => move_once lik low rnd src des g param
  | DReverse src g rnd => reverse_once lik low rnd src g param
  | DShuffle src g perm rnd => shuffle_once lik low rnd perm src g param
  | DSwitch src des => switch_once lik low src des param
  | DLoop ks cross => loop_once lik low ks cross param
  | DNear ks kmin => near_once lik low ks kmin param
  | DStart perm => startorder_once perm param
  end.

Inductive order_event (A : Type) : Type :=
  | EEngine (kw : nat) (low : Z) (d : order_draw A)
  | ESort
  | ECopy (src des : nat).
Arguments EEngine {A}. Arguments ESort {A}. Arguments ECopy {A}.

(** State: counter and walkers. None: an exception was raised. *)
Definition order_step {A} (lik : list A -> Z) (st : option (nat * list (walker A)))
    (e : order_event A) : option (nat * list (walker A)) :=
  match st with
  | None => None
  | Some (count, ws) =>
      match e with
      | ESort => Some (count, sort_walkers ws)
      | ECopy s d => option_map (fun r => (count, r)) (copy_walker ws s d)
      | EEngine kw low d =>
          match nth_error ws kw with
          | None => None
          | Some w =>
              match run_draw lik low d (wpars w) with
              | None => None
              | Some (_, stored) => order_store lik count ws kw stored
              end
          end
      end
  end.

Definition order_run {A} (lik : list A -> Z) (st : option (nat * list (walker A)))
    (es : list (order_event A)) := fold_left (order_step lik) es st.
