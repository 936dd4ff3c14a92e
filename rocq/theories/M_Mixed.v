(** Model of MixedErrorDistribution.py for parts with any number of hyper-parameters: the parameter
    lists made in logLdata 146-152 and nextPartialData 181-188 with the assignment that may fail,
    and of BernoulliErrorDistribution.py for models with more than one output (145-156, 208-232).
    The rest of the mixture is in M_Errdis.v. *)
From Coquelicot Require Import Coquelicot.
From Coq Require Import Reals List ZArith Bool.
From Verif Require Import M_Errdis.
Import ListNotations.
Local Open Scope R_scope.

(** numpy: [q[-n:] = src]; with n = 0 the slice is the whole of q.  One item is spread over the slice,
    any other difference in length raises ValueError (None). *)
Definition assignTail (n : nat) (q src : list R) : option (list R) :=
  let t := if Nat.eqb n 0 then length q else Nat.min n (length q) in
  let keep := firstn (length q - t) q in
  if Nat.eqb (length src) t then Some (keep ++ src)
  else match src with
       | [v] => Some (keep ++ repeat v t)
       | _ => None
       end.

(** MixedErrorDistribution.py:147-152 (and 183-188): the lists for the two parts, [n1] and [n2] are the
    numbers of hyper-parameters of the parts. *)
Definition mixLists (n1 n2 : nat) (allpars : list R) : option (list R * list R) :=
  let p1 := dropEnd (n2 + 1) allpars in
  let p2 := dropEnd (n1 + 1) allpars in
  match assignTail n2 p2 (skipn (length allpars - (n2 + 1)) (dropEnd 1 allpars)) with
  | Some p2' => Some (p1, p2')
  | None => None
  end.

(** logLdata 128-159 over all data points; the outer None is the ValueError. *)
Definition mixLogLdata (e1 e2 : errdis) (p : problem) (allpars : list R) : option (list (option R)) :=
  match mixLists (e_nh e1) (e_nh e2) allpars with
  | None => None
  | Some (p1, p2) =>
      let f := fromEnd 1 allpars in
      if Rle_dec f 0 then Some (map (e_ll e2 p p2) (rows p))
      else if Rle_dec 1 f then Some (map (e_ll e1 p p1) (rows p))
      else Some (map (fun r => logaddexp (option_map (fun v => v + ln f) (e_ll e1 p p1 r))
                                         (option_map (fun v => v + ln (1 - f)) (e_ll e2 p p2 r))) (rows p))
  end.

(** ** Bernoulli with several outputs *)

(** One data point: the class in ydata, output k of the model, and its partial to parameter j. *)
Record brow := mkB { b_y : R; b_m : list R -> nat -> R; b_dm : list R -> nat -> nat -> R }.

(** BernoulliErrorDistribution.py:151-156; None is log( 0 ) or the logarithm of a negative number *)
Definition bernElement (nout : nat) (ap : list R) (r : brow) : option R :=
  let lld := Rsum (map (fun k => if Req_EM_T (b_y r) (INR k) then b_m r ap k else 0) (seq 0 nout)) in
  if Rlt_dec 0 lld then Some (ln lld) else None.

(** logLdata 148-156; one output is M_Errdis.bernoulli_ll *)
Definition bernMany (nout : nat) (rs : list brow) (ap : list R) : option R :=
  sumO (map (bernElement nout ap) rs).

(** nextPartialData 221-232: dLdM[q,k] = 1 / mock[q,k] and zero elsewhere, contracted with the partials
    over data points and outputs (tensordot, axes ([0,1],[1,0])). *)
Definition bernWeight (r : brow) (ap : list R) (k : nat) : R :=
  if Req_EM_T (b_y r) (INR k) then 1 / b_m r ap k else 0.

Definition bernPartial (nout : nat) (rs : list brow) (ap : list R) (j : nat) : R :=
  Rsum (map (fun r => Rsum (map (fun k => bernWeight r ap k * b_dm r ap k j) (seq 0 nout))) rs).

(** ErrorDistribution.py:376-403 partialLogL: the number yielded is the sum of itself *)
Definition bernPartials (nout : nat) (rs : list brow) (ap : list R) (fitIndex : list nat) : list R :=
  map (bernPartial nout rs ap) fitIndex.
