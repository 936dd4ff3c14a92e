(** Model of the other two methods for the eccentric anomaly, Kepplers2ndLaw.eccentricAnomaly0 and eccentricAnomaly1
    (Kepplers2ndLaw.py:117-190), in real numbers, with the mean anomaly given; the third one, that is used, is in M_Kepler.  The loop stops
    for all data together.  A division by zero in eccentricAnomaly1 can only occur when the eccentricity is 1 or more. *)
From Coq Require Import List Arith Reals Bool.
From Verif Require Import M_Kepler.
Import ListNotations.
Local Open Scope R_scope.

(** 143-150, 179-187: at most n turns; the anomalies, and whether they converged (if not, a line is printed) *)
Fixpoint anomalies (step : R -> R -> R) (n : nat) (Ms Es : list R) : list R * bool :=
  match n with
  | O => (Es, false)
  | S n =>
      let E := map (fun me => step (fst me) (snd me)) (combine Ms Es) in
      if forallb (fun ee => near (fst ee) (snd ee)) (combine E Es) then (E, true) else anomalies step n Ms E
  end.
(** 144-145 *)
Definition step0 (eccen M Ep : R) : R := M - eccen * sin Ep.
(** 180-182 *)
Definition step1 (eccen M Ep : R) : R := Ep - (M + eccen * sin Ep - Ep) / (eccen * cos Ep - 1).
(** 117-153, 155-190; MAXITER = 100 (53) *)
Definition eccentricAnomaly0 (eccen : R) (Ms : list R) : list R * bool := anomalies (step0 eccen) 100 Ms Ms.
Definition eccentricAnomaly1 (eccen : R) (Ms : list R) : list R * bool := anomalies (step1 eccen) 100 Ms Ms.
