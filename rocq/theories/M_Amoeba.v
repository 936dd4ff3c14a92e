(** AnnealingAmoeba (AnnealingAmoeba.py:132-612) in real numbers; the function to minimise is real valued:
    the second chance for corners with a value that is not finite (343-345) and the repetition of steps
    that yield NaN (478-481, 486-489, 495-498, 503-506) are left out.  Reporting is left out.
    numpy rows are views on the simplex; xopt is an array of its own or such a view. *)
From Coq Require Import List Arith Reals Bool.
From Verif Require Import M_Order M_Fitter.
Import ListNotations.
Local Open Scope R_scope.

Definition pt := list R.
Inductive xref := Own (p : pt) | Row (i : nat).

(** The names printed (411-508). *)
Inductive move := Reflect | Extrapolate | Contract | Shrink | Replace | Expand.

(** The attributes simplex, values, fopt, xopt, sum, iter, temp, the number of draws of rng.  For the
    statements only: the points where the function was asked for, and the moves made. *)
Record ast := mkA { a_rows : list pt; a_vals : list R; a_fopt : R; a_xopt : xref; a_sum : pt; a_iter : nat; a_temp : R;
                    a_k : nat; a_seen : list (pt * R); a_moves : list move }.

Definition row (s : ast) (i : nat) : pt := nth i (a_rows s) [].
Definition val (s : ast) (i : nat) : R := nth i (a_vals s) 0.

(** the array xopt as it reads *)
Definition xopt (s : ast) : pt := match a_xopt s with Own p => p | Row i => row s i end.

(** a * p + b * q *)
Definition lin (a : R) (p : pt) (b : R) (q : pt) : pt := map (fun xy => a * fst xy + b * snd xy) (combine p q).

(** numpy.sum( rows, axis=0 ) *)
Definition colsum (n : nat) (rows : list pt) : pt := fold_left (fun a r => lin 1 a 1 r) rows (repeat 0 n).

(** Limits of a parameter; None is infinite.  No limits at all (None, 196-198) is the list of (None,None). *)
Definition lims := list (option R * option R).

(** stayInLimits (289-314), one parameter *)
Definition stay1 (l : option R * option R) (old try : R) : R :=
  match fst l with
  | Some lo => if Rlt_dec try lo then (old + lo) / 2
               else match snd l with Some hi => if Rlt_dec hi try then (old + hi) / 2 else try | None => try end
  | None => match snd l with Some hi => if Rlt_dec hi try then (old + hi) / 2 else try | None => try end
  end.
Definition stayInLimits (ls : lims) (old try : pt) : pt :=
  map (fun a => stay1 (fst a) (fst (snd a)) (snd (snd a))) (combine ls (combine old try)).

(** 239-259, one parameter: the start and the step; hasLowLimits asks for the high limit (281), so it is
    true.  None: the start becomes minus infinity (254). *)
Definition inside1 (l : option R * option R) (x step : R) : option (R * R) :=
  let '(x', step') :=
    match l with
    | (Some lo, Some hi) => if Rle_dec x lo then (/ 2 * (hi + lo), / 10 * (hi - lo)) else (x, step)
    | (Some lo, None) => if Rle_dec x lo then (lo + 10, 1) else (x, step)
    | (None, _) => (x, step)
    end in
  match l with
  | (Some lo, Some hi) => if Rle_dec hi x then Some (/ 2 * (hi + lo), / 10 * (hi - lo)) else Some (x', step')
  | (None, Some hi) => if Rle_dec hi x then None else Some (x', step')
  | (_, None) => Some (x', step')
  end.
Fixpoint insides (ls : lims) (x step : pt) : option (pt * pt) :=
  match ls, x, step with
  | l :: ls, a :: x, b :: step =>
      match inside1 l a b, insides ls x step with
      | Some (a, b), Some (x, step) => Some (a :: x, b :: step)
      | _, _ => None
      end
  | _, _, _ => Some ([], [])
  end.

(** 267-272 *)
Definition corner (ls : lims) (x step : pt) (i : nat) : pt :=
  stayInLimits ls x (upd i (nth i x 0 + nth i step 0) x).

(** checkSimplex (316-333): true when it raises *)
Definition degenerate (n : nat) (rows : list pt) : bool :=
  existsb (fun i => forallb (fun x => if Req_EM_T x (nth i (nth 0 rows []) 0) then true else false) (nth i rows [])) (seq 0 n).

Section Amoeba.
  Context (func : pt -> R) (ls : lims) (abstol reltol : option R) (maxiter0 steps : nat) (cooling : R)
          (callback : option (pt -> pt)) (rnd : nat -> R).

  (** setValues (335-352) *)
  Definition best (rows : list pt) : R * pt :=
    match rows with
    | [] => (0, [])
    | p :: r => fold_left (fun b q => if Rlt_dec (func q) (fst b) then (func q, q) else b) r (func p, p)
    end.

  (** makeSimplex (225-275) in __init__ (216-221) *)
  Definition makeSimplex (xini step : pt) (temp : R) : result ast :=
    match insides ls xini step with
    | None => Err RuntimeError
    | Some (x, st) =>
        let n := length xini in
        let rows := map (corner ls x st) (seq 0 (S n)) in
        if degenerate n rows then Err ValueError
        else Ret (mkA rows (map func rows) (fst (best rows)) (Own (snd (best rows))) (colsum n rows) 0 temp 0
                      (map (fun p => (p, func p)) rows) [])
    end.

  (** logRanTemp (610-612), the k-th draw *)
  Definition logRanTemp (temp : R) (k : nat) : R := - temp * ln (rnd k + / 10 ^ 30).

  (** 413-435: from the values with their fluctuations: ilo, ihi, ylo, ynhi, yhi *)
  Record sel := mkS { z_ilo : nat; z_ihi : nat; z_lo : R; z_nhi : R; z_hi : R }.
  Definition select1 (z : sel) (iy : nat * R) : sel :=
    let '(i, yt) := iy in
    let '(ilo, ylo) := if Rle_dec yt (z_lo z) then (i, yt) else (z_ilo z, z_lo z) in
    if Rlt_dec (z_hi z) yt then mkS ilo i ylo (z_hi z) yt
    else if Rlt_dec (z_nhi z) yt then mkS ilo (z_ihi z) ylo yt (z_hi z)
    else mkS ilo (z_ihi z) ylo (z_nhi z) (z_hi z).
  Definition select (ys : list R) : sel :=
    match ys with
    | y0 :: y1 :: r =>
        fold_left select1 (combine (seq 2 (length r)) r) (if Rlt_dec y1 y0 then mkS 1 0 y1 y1 y0 else mkS 0 1 y0 y0 y1)
    | _ => mkS 0 0 0 0 0
    end.
  Definition fluctuate (s : ast) : list R :=
    map (fun iv => snd iv + logRanTemp (a_temp s) (a_k s + fst iv)) (combine (seq 0 (length (a_vals s))) (a_vals s)).

  (** 441-443 *)
  Definition stops (ylo yhi : R) : bool :=
    let d := Rabs (yhi - ylo) in
    (match abstol with None => true | Some a => if Rlt_dec d a then true else false end) &&
    (match reltol with None => true | Some r => if Rlt_dec (d / Rmax (Rabs yhi + Rabs ylo) (/ 10 ^ 20)) r then true else false end).

  Definition setrow (s : ast) (i : nat) (p : pt) (v : R) : ast :=
    mkA (upd i p (a_rows s)) (upd i v (a_vals s)) (a_fopt s) (a_xopt s) (a_sum s) (a_iter s) (a_temp s) (a_k s) (a_seen s) (a_moves s).
  Definition setbest (s : ast) (v : R) (x : xref) : ast :=
    mkA (a_rows s) (a_vals s) v x (a_sum s) (a_iter s) (a_temp s) (a_k s) (a_seen s) (a_moves s).
  Definition setsum (s : ast) (p : pt) : ast :=
    mkA (a_rows s) (a_vals s) (a_fopt s) (a_xopt s) p (a_iter s) (a_temp s) (a_k s) (a_seen s) (a_moves s).
  Definition draw (s : ast) (k : nat) : ast :=
    mkA (a_rows s) (a_vals s) (a_fopt s) (a_xopt s) (a_sum s) (a_iter s) (a_temp s) (a_k s + k) (a_seen s) (a_moves s).
  Definition see (s : ast) (p : pt) : ast :=
    mkA (a_rows s) (a_vals s) (a_fopt s) (a_xopt s) (a_sum s) (a_iter s) (a_temp s) (a_k s) (a_seen s ++ [(p, func p)]) (a_moves s).
  Definition moved (s : ast) (m : move) : ast :=
    mkA (a_rows s) (a_vals s) (a_fopt s) (a_xopt s) (a_sum s) (a_iter s) (a_temp s) (a_k s) (a_seen s) (a_moves s ++ [m]).
  Definition settemp (s : ast) (t : R) : ast :=
    mkA (a_rows s) (a_vals s) (a_fopt s) (a_xopt s) (a_sum s) (a_iter s) t (a_k s) (a_seen s) (a_moves s).
  Definition tickiter (s : ast) : ast :=
    mkA (a_rows s) (a_vals s) (a_fopt s) (a_xopt s) (a_sum s) (S (a_iter s)) (a_temp s) (a_k s) (a_seen s) (a_moves s).

  Definition nfit (s : ast) : nat := length ls.

  (** trialStep (574-608); the draw of randomRange that follows is counted here *)
  Definition trialStep (s : ast) (ihi : nat) (yhi factor : R) (m : move) : R * ast :=
    let fac1 := (1 - factor) / INR (nfit s) in
    let fac2 := fac1 - factor in
    let partry := lin fac1 (a_sum s) (- fac2) (row s ihi) in
    let partry := stayInLimits ls (row s ihi) partry in
    let ytry := func partry in
    let s := moved (see s partry) m in
    let s := if Rlt_dec ytry (a_fopt s) then setbest s ytry (Own partry) else s in
    let yflu := ytry - logRanTemp (a_temp s) (a_k s) in
    let s := draw s 2 in
    if Rlt_dec yflu yhi
    then (yflu, setrow (setsum s (lin 1 (a_sum s) 1 (lin 1 partry (-1) (row s ihi)))) ihi partry ytry)
    else (yflu, s).

  (** 551-558, one row: inpar is a view on the row, which has its new values when stayInLimits reads it *)
  Definition inflate1 (factor : R) (lo p : pt) : pt :=
    let q := lin factor p (1 - factor) lo in stayInLimits ls q q.

  (** 560-568: with ylo *)
  Definition inflate2 (ys : R * ast) (i : nat) : R * ast :=
    let '(ylo, s) := ys in
    let p := row s i in
    let v := func p in
    let s := see (setrow s i p v) p in
    if Rlt_dec v ylo
    then (v, if Rlt_dec v (a_fopt s) then setbest s v (Row i) else s)
    else (ylo, s).

  (** inflateSimplex (535-572) *)
  Definition inflateSimplex (s : ast) (ilo : nat) (factor : R) (m : move) : R * ast :=
    let nrow := length (a_rows s) in
    let milo := seq 0 ilo ++ seq (S ilo) (nrow - S ilo) in
    let rows := map (fun ip => if (fst ip =? ilo)%nat then snd ip else inflate1 factor (row s ilo) (snd ip)) (combine (seq 0 nrow) (a_rows s)) in
    let s1 := mkA rows (a_vals s) (a_fopt s) (a_xopt s) (a_sum s) (a_iter s) (a_temp s) (a_k s) (a_seen s) (a_moves s) in
    let '(ylo, s2) := fold_left inflate2 milo (val s ilo, s1) in
    (ylo, moved (setsum s2 (colsum (nfit s) rows)) m).

  (** 449-456: the values change places, the rows do not: swap is a view on row 0 *)
  Definition swap (s : ast) (ilo : nat) : ast :=
    if (0 <? ilo)%nat
    then mkA (upd 0 (row s ilo) (a_rows s)) (upd ilo (val s 0) (upd 0 (val s ilo) (a_vals s)))
             (a_fopt s) (a_xopt s) (a_sum s) (a_iter s) (a_temp s) (a_k s) (a_seen s) (a_moves s)
    else s.

  (** 412-516, one turn of the loop; the boolean: break *)
  Definition turn (s : ast) (trans : nat) : bool * ast * nat :=
    let z := select (fluctuate s) in
    let s := draw s (length (a_vals s)) in
    let ilo := z_ilo z in let ihi := z_ihi z in
    if stops (z_lo z) (z_hi z) then
      let s := swap s ilo in
      let tol := match abstol, reltol with Some a, _ => a | None, Some r => r | None, None => 0 end in
      if Rlt_dec tol (Rabs (a_fopt s - z_lo z)) then (false, moved (setrow s ilo (xopt s) (a_fopt s)) Replace, trans)
      else if (a_iter s =? 0)%nat then (false, snd (inflateSimplex s ilo 10 Expand), (trans + nfit s)%nat)
      else (true, s, trans)
    else
      let '(ytry, s) := trialStep s ihi (z_hi z) (-1) Reflect in
      let '(s, trans) :=
        if Rlt_dec ytry (z_lo z) then (snd (trialStep s ihi (z_hi z) 2 Extrapolate), (trans + 2)%nat)
        else if Rle_dec (z_nhi z) ytry then
          let '(ytry, s) := trialStep s ihi (z_hi z) (/ 2) Contract in
          if Rle_dec (z_hi z) ytry then (draw (snd (inflateSimplex s ilo (/ 2) Shrink)) 1, (trans + 2 + nfit s)%nat)
          else (s, (trans + 2)%nat)
        else (s, (trans + 1)%nat) in
      let s := match callback with None => s | Some f => setrow s ihi (f (row s ihi)) (val s ihi) end in
      (false, tickiter s, trans).

  (** temperatureStep (391-518).  None: not finished within the fuel. *)
  Fixpoint turns (fuel maxiter : nat) (s : ast) (trans : nat) : option (ast * nat) :=
    match fuel with
    | O => None
    | S n =>
        if (a_iter s <? maxiter)%nat then
          let '(brk, s, trans) := turn s trans in
          if brk then Some (s, trans) else turns n maxiter s trans
        else Some (s, trans)
    end.
  Definition temperatureStep (fuel : nat) (s : ast) : option (ast * nat) :=
    turns fuel (a_iter s + (if Req_EM_T (a_temp s) 0 then maxiter0 else steps * nfit s))
          (setsum s (colsum (nfit s) (a_rows s))) 0.

  (** minimize (355-389) *)
  Fixpoint loop (fuel maxiter : nat) (s : ast) : option (result pt * ast) :=
    match fuel with
    | O => None
    | S n =>
        if (a_iter s <? maxiter)%nat then
          match temperatureStep n s with
          | None => None
          | Some (s, trans) =>
              let s := if Rlt_dec 0 (a_temp s) then settemp s (a_temp s * cooling) else s in
              if (trans =? 0)%nat then Some (Ret (xopt s), s) else loop n maxiter s
          end
        else Some (Err ConvergenceError, s)
    end.
  Definition minimize (fuel : nat) (s : ast) : option (result pt * ast) :=
    loop fuel (maxiter0 * (if Req_EM_T (a_temp s) 0 then 1 else steps)) s.
End Amoeba.
