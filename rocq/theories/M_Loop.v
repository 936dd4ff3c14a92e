(** How the LoopEngine finds two legs that cross (LoopEngine.py:94-155, Tools.isBetween Tools.py:103-108), and how the NearEngine finds the
    nearest neighbour of a city and remembers it (NearEngine.py:85-146).  Real numbers; numpy's division by zero yields an infinity or NaN,
    which is not between anything.  The acceptance of a proposal is in M_Order (loop_once, near_once). *)
From Coq Require Import List Arith Reals.
From Verif Require Import M_Order.
Import ListNotations.
Local Open Scope R_scope.

(** Tools.py:103-108 *)
Definition leb (a b : R) : bool := if Rle_dec a b then true else false.
Definition isBetween (xs x xe : R) : bool := (leb xs x && leb x xe) || (leb xe x && leb x xs).

Definition swap (p : R * R) : R * R := (snd p, fst p).

(** LoopEngine.py:120-126, 132-145: do the legs k1-k2 and k3-k4 cross?  [xd k] is problem.xdata[k,dims].  When x1 == x2 dims is reversed
    before the points 3 and 4 are read; the points 1 and 2 have been read already. *)
Definition crossTest (xd : nat -> R * R) (k1 k2 k3 k4 : nat) : bool :=
  let (x1, y1) := xd k1 in
  let (x2, y2) := xd k2 in
  let upright := if Req_EM_T x1 x2 then true else false in
  let m1 := if upright then 0 else (y2 - y1) / (x2 - x1) in
  let (x3, y3) := if upright then swap (xd k3) else xd k3 in
  let (x4, y4) := if upright then swap (xd k4) else xd k4 in
  if Req_EM_T x3 x4 then
    let xc := x3 in
    let yc := y1 + m1 * (xc - x1) in
    isBetween x1 xc x2 && isBetween y3 yc y4
  else
    let m3 := (y4 - y3) / (x4 - x3) in
    if Req_EM_T m3 m1 then false
    else
      let xc := (y3 - y1 + m3 * x3 - m1 * x1) / (m3 - m1) in
      isBetween x1 xc x2 && isBetween x3 xc x4.

(** LoopEngine.py:129-149: the for loop, at t with ptry[t-1] = k3; l is ptry[t:np-1].  None: no break. *)
Fixpoint crossLoop (test : nat -> nat -> bool) (t k3 : nat) (l : list nat) : option nat :=
  match l with
  | [] => None
  | k4 :: l => if test k3 k4 then Some t else crossLoop test (S t) k4 l
  end.

(** LoopEngine.py:117-149; None also stands for the IndexError with less than 2 points *)
Definition findCross (xd : nat -> R * R) (ptry : list nat) : option nat :=
  match ptry with
  | k2 :: k :: rest => crossLoop (crossTest xd (last ptry 0%nat) k2) 2 k (removelast rest)
  | _ => None
  end.

(** ** NearEngine *)

(** The distances of SalesmanProblem, when NearEngine calls problem.distance( xd[nsel,:], [0,1] )[0] for nsel = [n0,k] (120, 126):
    euclidic and manhattan use the coordinates that are handed over; spherical (SalesmanProblem.py:233-246) uses the tables it
    made of all cities in the constructor (minimumDistance), and tabulated (288) the table, both at the numbers 0 and 1. *)
Inductive metric := FromCoordinates | FromTable.
Definition pairDistance (m : metric) (d : nat -> nat -> R) (n0 k : nat) : R :=
  match m with FromCoordinates => d n0 k | FromTable => d 0%nat 1%nat end.

(** NearEngine.py:124-130; l is ptry[k:] *)
Fixpoint nearLoop (dis : nat -> R) (k : nat) (l : list nat) (dmin : R) (kmin : nat) : nat :=
  match l with
  | [] => kmin
  | c :: l => if Rlt_dec (dis c) dmin then nearLoop dis (S k) l (dis c) k else nearLoop dis (S k) l dmin kmin
  end.

(** numpy.where( ptry == c )[0][0] *)
Fixpoint whereIs (c : nat) (l : list nat) : option nat :=
  match l with
  | [] => None
  | a :: l => if a =? c then Some O else option_map S (whereIs c l)
  end.

(** NearEngine.py:117-135: the position of the neighbour in ptry, and what is remembered (None: -1).  None: an IndexError *)
Definition nearFind (m : metric) (d : nat -> nat -> R) (nearest : nat -> option nat) (ptry : list nat)
  : option (nat * (nat -> option nat)) :=
  match ptry with
  | n0 :: p1 :: rest =>
      match nearest n0 with
      | None =>
          let kmin := nearLoop (pairDistance m d n0) 2 rest (pairDistance m d n0 p1) 1 in
          Some (kmin, fun n => if n =? n0 then nth_error ptry kmin else nearest n)
      | Some c => option_map (fun k => (k, nearest)) (whereIs c ptry)
      end
  | _ => None
  end.
