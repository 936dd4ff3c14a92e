(** Model of SalesmanProblem and DistanceCostFunction. *)
From Coq Require Import List Arith Reals.
From Verif Require Import M_Order.
Import ListNotations.
Local Open Scope R_scope.

(** Coordinates of one city (a row of xdata). *)
Definition coord := list R.

Definition sumR (l : list R) : R := fold_right Rplus 0 l.

(** |x-y| summed over the axes: one row of SalesmanProblem.manhattan 193-195. *)
Definition manhattan1 (x y : coord) : R :=
  sumR (map (fun '(a, b) => Rabs (a - b)) (combine x y)).

(** One row of SalesmanProblem.euclidic 213-215. *)
Definition euclidic1 (x y : coord) : R :=
  sqrt (sumR (map (fun '(a, b) => (a - b) * (a - b)) (combine x y))).

(** One row of SalesmanProblem.spherical 217-271, for (lon,lat) in degrees; the cached
    tables coslat1 .. chlat1 are the functions of the coordinates they hold.
    2*arctan2(sqrt a, sqrt(1-a)) for 0 <= a <= 1 is written 2*asin(sqrt a); a > 1 is
    clipped to 1 as in line 267. *)
Definition hav_a (x y : R * R) : R :=
  let rad := PI / 180 in
  let '(lon1, lat1) := x in
  let '(lon2, lat2) := y in
  Rsqr (sin (lat2 * rad / 2) * cos (lat1 * rad / 2) - sin (lat1 * rad / 2) * cos (lat2 * rad / 2))
  + cos (lat1 * rad) * cos (lat2 * rad)
    * Rsqr (sin (lon2 * rad / 2) * cos (lon1 * rad / 2) - sin (lon1 * rad / 2) * cos (lon2 * rad / 2)).
Definition spherical1 (x y : R * R) : R := 2 * asin (sqrt (Rmin 1 (hav_a x y))).

(** distance( xdata, pars, roll=roll ): item i is the distance from city pars[i] to city
    roll(pars,-roll)[i]. manhattan 177-195, euclidic 197-215, spherical 217-271,
    tabulated 273-291. [d] is the distance between two city numbers. *)
Definition distances (d : nat -> nat -> R) (rl : nat) (pars : list nat) : list R :=
  map (fun '(a, b) => d a b) (combine pars (rollneg rl pars)).

Record salesman := mkS { s_dist : nat -> nat -> R; s_scale : R; s_oneway : bool;
                         s_weights : option (nat -> R) }.

(** res[-1] = 0 *)
Definition zero_last (l : list R) : list R :=
  match l with [] => [] | _ => removelast l ++ [0] end.

(** SalesmanProblem.result 148-175 *)
Definition sp_result (s : salesman) (pars : list nat) : list R :=
  let res := map (fun x => x / s_scale s) (distances (s_dist s) 1 pars) in
  let res := if s_oneway s then zero_last res else res in
  match s_weights s with
  | None => res
  | Some w => map (fun '(r, k) => r * w k) (combine res pars)
  end.

(** DistanceCostFunction.logLdata 97-109, summed by ErrorDistribution.logLhood 362-375. *)
Definition dcf_logL (s : salesman) (pars : list nat) : R :=
  sumR (map Ropp (sp_result s pars)).

(** DistanceCostFunction.logLikelihood_alt 80-94 *)
Definition dcf_logL_alt (s : salesman) (pars : list nat) : R := - sumR (sp_result s pars).

(** numpy.min( l, initial=md ) *)
Definition minlist (md : R) (l : list R) : R := fold_left Rmin l md.

(** SalesmanProblem.minimumDistance 293-304 for n >= 1 cities. min() of the first
    distance array, then over roll = 2 .. n-1. None: min() of an empty array (ValueError). *)
Definition minimumDistance (d : nat -> nat -> R) (n : nat) : option R :=
  let pars := seq 0 n in
  match distances d 1 pars with
  | [] => None
  | x :: r => Some (fold_left (fun md k => minlist md (distances d k pars)) (seq 2 (n - 2)) (minlist x r))
  end.
