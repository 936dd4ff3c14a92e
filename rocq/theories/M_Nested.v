(** Model of the nested sampling loop: NestedSampler.py, Explorer.py, SampleList.py.
    Floating point numbers are reals. *)
From Coq Require Import List Arith Reals Lia Lra.
From Verif Require Import M_Order.
Import ListNotations.
Local Open Scope R_scope.

(** Walker.py:30-114, the fields used by the loop. *)
Record nwalker : Type := mkNW { nw_id : nat; nw_logL : R; nw_logPrior : R; nw_par : list R }.
(** Sample.py:85-120 *)
Record nsample : Type := mkNS { ns_id : nat; ns_parent : nat; ns_logL : R; ns_logW : R;
                                ns_par : list R }.
(** SampleList.py:103-129: the list and its counter. *)
Record slist : Type := mkSL { sl_count : nat; sl_items : list nsample }.
Definition sl_empty : slist := mkSL 0 [].

(** Walker.toSample 121-140 (the parent is overwritten in SampleList.add). *)
Definition toSample (w : nwalker) (logW : R) : nsample :=
  mkNS (nw_id w) 0 (nw_logL w + nw_logPrior w) logW (nw_par w).

(** SampleList.add 226-240 *)
Definition sl_add (s : slist) (x : nsample) : slist :=
  mkSL (S (sl_count s))
       (sl_items s ++ [mkNS (sl_count s) (ns_id x) (ns_logL x) (ns_logW x) (ns_par x)]).

(** SampleList.copy 242-256: des gets the contents of src but keeps its id.
    None: IndexError. *)
Definition sl_copy (s : slist) (src des : nat) : option slist :=
  match nth_error (sl_items s) src, nth_error (sl_items s) des with
  | Some a, Some b => Some (mkSL (sl_count s)
      (upd des (mkNS (ns_id b) (ns_parent a) (ns_logL a) (ns_logW a) (ns_par a)) (sl_items s)))
  | _, _ => None
  end.

(** SampleList.addSamples 131-140: fresh samples with logL = logW = 0. *)
Fixpoint sl_addSamples (n : nat) (par : list R) (s : slist) : slist :=
  match n with
  | O => s
  | S m => sl_addSamples m par
             (mkSL (S (sl_count s)) (sl_items s ++ [mkNS (sl_count s) 0 0 0 par]))
  end.

(** SampleList.weed 259-277: while too long, remove the first or the last item. *)
Fixpoint weed_loop (fuel maxsize : nat) (l : list nsample) : list nsample :=
  match fuel with
  | O => l
  | S f =>
      if (maxsize <? length l)%nat then
        match l with
        | [] => l
        | a :: r =>
            if Rlt_dec (ns_logW a) (ns_logW (last l a)) then weed_loop f maxsize r
            else weed_loop f maxsize (removelast l)
        end
      else l
  end.
Definition sl_weed (maxsize : option nat) (s : slist) : slist :=
  match maxsize with
  | None => s
  | Some m => mkSL (sl_count s) (weed_loop (length (sl_items s)) m (sl_items s))
  end.

Fixpoint sumL (l : list R) : R := match l with [] => 0 | x :: r => x + sumL r end.
Fixpoint maxL (d : R) (l : list R) : R := match l with [] => d | x :: r => Rmax x (maxL d r) end.

(** SampleList.normalize 208-223. (numpy.max of an empty list raises: the list is taken
    non-empty, the default of maxL is its first element.) *)
Definition sl_normalize (s : slist) : slist :=
  let lw := map ns_logW (sl_items s) in
  let lmax := match lw with [] => 0 | x :: r => maxL x r end in
  let lswt := ln (sumL (map (fun x => exp (x - lmax)) lw)) in
  mkSL (sl_count s)
       (map (fun x => mkNS (ns_id x) (ns_parent x) (ns_logL x) (ns_logW x - (lmax + lswt))
                           (ns_par x)) (sl_items s)).

(** SampleList.averstd 351-372 for one parameter (component-wise in the code). *)
Definition sl_average (f : nsample -> R) (s : slist) : R :=
  sumL (map (fun x => exp (ns_logW x) * f x) (sl_items s)).
Definition sl_second (f : nsample -> R) (s : slist) : R :=
  sumL (map (fun x => exp (ns_logW x) * f x * f x) (sl_items s)).
Definition sl_stdev (f : nsample -> R) (s : slist) : R :=
  sqrt (Rmax (sl_second f s - sl_average f s * sl_average f s) 0).
(** SampleList.average 511-539: the variance is not clipped at 0 there. *)
Definition sl_variance (f : nsample -> R) (s : slist) : R :=
  sl_second f s - sl_average f s * sl_average f s.

(** SampleList.getMedianIndex 375-388 *)
Fixpoint median_loop (acc : R) (k : nat) (l : list nsample) : nat :=
  match l with
  | [] => k
  | x :: r => let acc' := acc + exp (ns_logW x) in
              if Rlt_dec acc' (1/2) then median_loop acc' (S k) r else k
  end.
Definition medianIndex (s : slist) : nat := median_loop 0 0 (sl_items s).

(** SampleList.__getattr__ modusIndex 175-178: we.index( max( we ) ). *)
Fixpoint index_of (x : R) (l : list R) : nat :=
  match l with
  | [] => 0
  | y :: r => if Req_EM_T y x then 0%nat else S (index_of x r)
  end.
Definition modusIndex (s : slist) : nat :=
  let we := map ns_logW (sl_items s) in
  match we with [] => 0%nat | x :: r => index_of (maxL x r) we end.

(** SampleList.getLowLogL 495-507 / WalkerList.getLowLogL 288-300 *)
Fixpoint low_loop (low : R) (klo k : nat) (l : list R) : R * nat :=
  match l with
  | [] => (low, klo)
  | x :: r => if Rlt_dec x low then low_loop x k (S k) r else low_loop low klo (S k) r
  end.
Definition getLowLogL (l : list R) : option (R * nat) :=
  match l with [] => None | x :: _ => Some (low_loop x 0 0 l) end.

(** *** The sampler *)
Record nstate : Type := mkST {
  st_walkers : list nwalker; st_samples : slist;
  st_logZ : option R;            (* None: -sys.float_info.max, NestedSampler.py:434 *)
  st_info : R; st_logWidth : R; st_low : R; st_iter : nat; st_logdZ : R }.

(** NestedSampler.sample 434-437: the start of the loop. *)
Definition ns_start (ws : list nwalker) (low : R) : nstate :=
  mkST ws sl_empty None 0 (ln (1 - exp (- 1 / INR (length ws)))) low 0 0.

(** numpy.logaddexp *)
Definition logaddexp (z : option R) (w : R) : R :=
  match z with None => w | Some z => ln (exp z + exp w) end.

(** The body of the loop in NestedSampler.updateEvidence 765-783; [n] is self.ensemble, the
    length of the walker list (904-905). None: IndexError. The replacement of NaN (775) has
    no counterpart in R. *)
Definition update_one (st : option nstate) (kw : nat) : option nstate :=
  match st with
  | None => None
  | Some s =>
      match nth_error (st_walkers s) kw with
      | None => None
      | Some w =>
          let logWeight := st_logWidth s + nw_logL w + nw_logPrior w in
          let logZnew := logaddexp (st_logZ s) logWeight in
          let info := exp (logWeight - logZnew) * st_low s +
                      match st_logZ s with
                      | None => 0
                      | Some z => exp (z - logZnew) * (st_info s + z)
                      end - logZnew in
          Some (mkST (st_walkers s) (sl_add (st_samples s) (toSample w logWeight))
                     (Some logZnew) info
                     (st_logWidth s - 1 / (INR (length (st_walkers s)) - INR kw))
                     (st_low s) (st_iter s) (logWeight - logZnew))
      end
  end.

(** NestedSampler.updateEvidence 752-787 *)
Definition updateEvidence (worst : nat) (st : option nstate) : option nstate :=
  fold_left update_one (seq 0 worst) st.

(** [self.walkers.sort( key=self.walkerLogL )] 448: stable sort. *)
Fixpoint nins (w : nwalker) (ws : list nwalker) : list nwalker :=
  match ws with
  | [] => [w]
  | v :: r => if Rle_dec (nw_logL w) (nw_logL v) then w :: v :: r else v :: nins w r
  end.
Fixpoint nsort (ws : list nwalker) : list nwalker :=
  match ws with [] => [] | w :: r => nins w (nsort r) end.

(** WalkerList.copy 124-147 *)
Definition nw_copy (ws : list nwalker) (src des : nat) : option (list nwalker) :=
  match nth_error ws src, nth_error ws des with
  | Some s, Some d =>
      Some (upd des (mkNW (nw_id d) (nw_logL s) (nw_logPrior s) (nw_par s)) ws)
  | _, _ => None
  end.

(** NestedSampler.copyWalker 789-803; [kcp k] is the k-th randint( worst, ensemble ). *)
Fixpoint copy_worst (kcp : nat -> nat) (n : nat) (ws : list nwalker) : option (list nwalker) :=
  match n with
  | O => Some ws
  | S k => match copy_worst kcp k ws with
           | None => None
           | Some ws' => nw_copy ws' (kcp k) k
           end
  end.

(** Explorer.exploreWalker 145-209: engines replace walker kw by new points (any number of
    times, [moves] lists their logL and parameters; logPrior of a new Walker is 0,
    Walker.py:106); at the end the walker is checked against the limit (206-207).
    None: the Exception, or IndexError. *)
Definition move_to (w : nwalker) (m : R * list R) : nwalker :=
  mkNW (nw_id w) (fst m) 0 (snd m).
Definition exploreWalker (low : R) (moves : list (R * list R)) (kw : nat) (ws : list nwalker)
  : option (list nwalker) :=
  match nth_error ws kw with
  | None => None
  | Some w =>
      let w' := fold_left move_to moves w in
      if Rlt_dec (nw_logL w') low then None else Some (upd kw w' ws)
  end.

(** Explorer.explore 98-117 without threads, for the walkers 0 .. n-1. *)
Fixpoint explore (low : R) (moves : nat -> list (R * list R)) (n : nat) (ws : list nwalker)
  : option (list nwalker) :=
  match n with
  | O => Some ws
  | S k => match explore low moves k ws with
           | None => None
           | Some ws' => exploreWalker low (moves k) k ws'
           end
  end.

(** The random choices of one iteration. *)
Record oracle : Type := mkO { o_kcp : nat -> nat; o_moves : nat -> list (R * list R) }.

(** One pass of the loop in NestedSampler.sample 446-466 (reports and saving left out);
    [worst] is self.discard. randint( worst, ensemble ) returns a value in
    [worst, ensemble) or raises ValueError. *)
Definition valid_kcp (worst n : nat) (kcp : nat -> nat) : bool :=
  forallb (fun k => (worst <=? kcp k)%nat && (kcp k <? n)%nat)%bool (seq 0 worst).

Definition ns_iteration (worst : nat) (maxsize : option nat) (o : oracle) (s : nstate)
  : option nstate :=
  let ws := nsort (st_walkers s) in
  match nth_error ws (worst - 1) with
  | None => None
  | Some wl =>
      let low := nw_logL wl in
      match updateEvidence worst (Some (mkST ws (st_samples s) (st_logZ s) (st_info s)
                                    (st_logWidth s) low (st_iter s) (st_logdZ s))) with
      | None => None
      | Some s1 =>
          if valid_kcp worst (length ws) (o_kcp o) then
            match copy_worst (o_kcp o) worst (st_walkers s1) with
            | None => None
            | Some ws1 =>
                match explore low (o_moves o) worst ws1 with
                | None => None
                | Some ws2 =>
                    Some (mkST ws2 (sl_weed maxsize (st_samples s1)) (st_logZ s1) (st_info s1)
                               (st_logWidth s1) (st_low s1) (S (st_iter s1)) (st_logdZ s1))
                end
            end
          else None
      end
  end.

Definition ns_step (worst : nat) (maxsize : option nat) (st : option nstate) (o : oracle)
  : option nstate :=
  match st with None => None | Some s => ns_iteration worst maxsize o s end.

(** Any number of iterations. *)
Definition ns_run (worst : nat) (maxsize : option nat) (os : list oracle) (s : nstate)
  : option nstate := fold_left (ns_step worst maxsize) os (Some s).

(** NestedSampler.sample 470: the remaining walkers are added. *)
Definition ns_collect (s : nstate) : option nstate :=
  updateEvidence (length (st_walkers s)) (Some s).
(** 473-475: logZ and the normalised samples. (self.samples.LogZ is another attribute than
    samples.logZ, which stays 0.) *)
Definition ns_finish (s : nstate) : option (option R * slist) :=
  match ns_collect s with
  | None => None
  | Some s' => Some (st_logZ s', sl_normalize (st_samples s'))
  end.

(** NestedSampler.nextIteration 709-721; iteration counts are compared as reals. *)
Definition nextIteration (minIter : nat) (maxIter : option nat) (tolerance end_ : R)
    (worst : nat) (s : nstate) : bool :=
  if (st_iter s <? minIter)%nat then true
  else if Rlt_dec (st_logdZ s) tolerance then false
  else if match maxIter with Some m => (m <? st_iter s)%nat | None => false end then false
  else if Rgt_dec (INR (st_iter s))
            (end_ * INR (length (st_walkers s)) * st_info s / INR worst) then false
  else true.

(** NestedSampler.sample 446-466 with its loop condition; the iteration is bounded by the
    number of oracles, the second component tells whether the loop stopped by itself. *)
Fixpoint ns_loop (minIter : nat) (maxIter : option nat) (tolerance end_ : R)
    (worst : nat) (maxsize : option nat) (os : list oracle) (s : nstate) : option (nstate * bool) :=
  if nextIteration minIter maxIter tolerance end_ worst s then
    match os with
    | [] => Some (s, false)
    | o :: r => match ns_iteration worst maxsize o s with
                | None => None
                | Some s' => ns_loop minIter maxIter tolerance end_ worst maxsize r s'
                end
    end
  else Some (s, true).
