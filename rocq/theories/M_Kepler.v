(** Kepplers2ndLaw.py:55-450, RadialVelocityModel.py:94-248 and StellarOrbitModel.py:127-419, in real numbers.
    Everything is for one data point, except the loop that finds the eccentric anomaly, which stops for all together.
    Left out: parlist, the attributes in which intermediate numbers are kept. *)
From Coq Require Import List Arith ZArith Reals Bool.
Import ListNotations.
Local Open Scope R_scope.

(** numpy.arctan2 *)
Definition arctan2 (y x : R) : R :=
  if Rlt_dec 0 x then atan (y / x)
  else if Rlt_dec x 0 then (if Rlt_dec y 0 then atan (y / x) - PI else atan (y / x) + PI)
  else if Rlt_dec 0 y then PI / 2 else if Rlt_dec y 0 then - (PI / 2) else 0.

Definition TWOPI : R := 2 * PI.

(** 55-75; 77-87; 90-105 *)
Definition meanAnomaly (x period phase : R) : R := TWOPI * x / period - phase.
Definition dMdx (period : R) : R := TWOPI / period.
Definition dMdP (x period : R) : R := - TWOPI * x / (period * period).
Definition dMdp : R := -1.

(** eccentricAnomaly2 (192-247): one step, and the loop with at most MAXITER = 100 turns.  It yields E, sinE and cosE; these
    are of the anomaly before the last step.  None: no convergence within 100 turns; then a line is printed and the last numbers
    are used.  That is also what comes of a division by zero: numpy goes on with infinities and NaNs, that are near to nothing. *)
Definition efx (eccen M Ep : R) : R := M + eccen * sin Ep - Ep.
Definition efp (eccen Ep : R) : R := eccen * cos Ep - 1.
Definition eden (eccen M Ep : R) : R := 2 * efp eccen Ep * efp eccen Ep + efx eccen M Ep * (eccen * sin Ep).
Definition estep (eccen M Ep : R) : R := Ep - 2 * efx eccen M Ep * efp eccen Ep / eden eccen M Ep.
Definition finite (eccen M Ep : R) : bool := if Req_EM_T (eden eccen M Ep) 0 then false else true.
Definition near (a b : R) : bool := if Rlt_dec (Rabs (a - b)) (/ 100000000) then true else false.
Fixpoint eloop (n : nat) (eccen : R) (Ms Es : list R) : option (list (R * R * R)) :=
  let E' := map (fun me => estep eccen (fst me) (snd me)) (combine Ms Es) in
  if forallb (fun me => finite eccen (fst me) (snd me)) (combine Ms Es) then
    if forallb (fun ee => near (fst ee) (snd ee)) (combine E' Es)
    then Some (map (fun ee => (fst ee, sin (snd ee), cos (snd ee))) (combine E' Es))
    else match n with O => None | S n => eloop n eccen Ms E' end
  else None.
Definition eccentricAnomaly (eccen : R) (Ms : list R) : option (list (R * R * R)) := eloop 99 eccen Ms Ms.

(** 249-260; 262-271; 273-291 *)
Definition dEdM (eccen cosE : R) : R := 1 / (1 - eccen * cosE).
Definition dEdx (eccen period cosE : R) : R := dEdM eccen cosE * dMdx period.
Definition dEde (eccen cosE sinE : R) : R := dEdM eccen cosE * sinE.
Definition dEdP (x eccen period cosE : R) : R := dEdM eccen cosE * dMdP x period.
Definition dEdp (eccen cosE : R) : R := dEdM eccen cosE * dMdp.

(** radiusAndTrueAnomaly (294-345) *)
Definition radius (eccen semimaj cosE : R) : R := semimaj * (1 - eccen * cosE).
Definition trueAnomaly (eccen cosE sinE : R) : R :=
  let ef := sqrt ((1 + eccen) / (1 - eccen)) in 2 * arctan2 (ef * sinE) (1 + cosE).

(** 376, 441 *)
Definition cc2 (cosE : R) : R := if Rle_dec cosE (- (1 - / 10000000000)) then 10000000000 else 1 / (1 + cosE).

(** drvdE (347-382), drvdx (384-398) *)
Definition drdE (eccen semimaj sinE : R) : R := semimaj * eccen * sinE.
Definition dvdE (eccen cosE : R) : R :=
  let ef := (1 + eccen) / (1 - eccen) in
  let c2 := cc2 cosE in
  let t2 := (1 - cosE) * c2 in
  sqrt ef * (c2 * 2) / (ef * t2 + 1).
Definition drdx (eccen semimaj period cosE sinE : R) : R := drdE eccen semimaj sinE * dEdx eccen period cosE.
Definition dvdx (eccen period cosE : R) : R := dvdE eccen cosE * dEdx eccen period cosE.

(** drvdpar (400-450) *)
Definition drde (eccen semimaj cosE sinE : R) : R := drdE eccen semimaj sinE * dEde eccen cosE sinE - semimaj * cosE.
Definition drda (eccen cosE : R) : R := 1 - eccen * cosE.
Definition drdP (x eccen semimaj period cosE sinE : R) : R := drdE eccen semimaj sinE * dEdP x eccen period cosE.
Definition drdp (eccen semimaj cosE sinE : R) : R := drdE eccen semimaj sinE * dEdp eccen cosE.
Definition dvdP (x eccen period cosE : R) : R := dvdE eccen cosE * dEdP x eccen period cosE.
Definition dvdp (eccen cosE : R) : R := dvdE eccen cosE * dEdp eccen cosE.
Definition dvde (eccen cosE sinE : R) : R :=
  let ef := (1 + eccen) / (1 - eccen) in
  let sef := sqrt ef in
  let e2 := (1 - eccen) * (1 - eccen) in
  let c2 := cc2 cosE in
  let tanE := sinE * c2 in
  let dd1 := 2 * tanE / (sef * e2) in
  let dd2 := dd1 + 2 * sef * dEde eccen cosE sinE * c2 in
  dd2 / (1 + ef * tanE * tanE).

(** ** RadialVelocityModel *)
(** baseResult (122-144); E is the eccentric anomaly found *)
Definition rvResult (e amp lon E : R) : R := amp * (cos (trueAnomaly e (cos E) (sin E) + lon) + e * cos lon).
(** basePartial (147-204); part number k *)
Definition rvPartial (x e amp period lon E : R) (k : nat) : R :=
  let v := trueAnomaly e (cos E) (sin E) in
  let sinvp4 := sin (v + lon) in
  match k with
  | 0%nat => amp * (cos lon - sinvp4 * dvde e (cos E) (sin E))
  | 1%nat => cos (v + lon) + e * cos lon
  | 2%nat => - amp * sinvp4 * dvdP x e period (cos E)
  | 3%nat => - amp * sinvp4 * dvdp e (cos E)
  | _ => - amp * (sinvp4 + e * sin lon)
  end.
(** baseDerivative (206-227) *)
Definition rvDerivative (e amp period lon E : R) : R :=
  - amp * sin (trueAnomaly e (cos E) (sin E) + lon) * dvdx e period (cos E).
(** semimajoraxis (103-105); None: math.sqrt of a negative number raises ValueError.  p: the parameters *)
Definition rvSemimajoraxis (p0 p1 p2 : R) : option R :=
  if Rlt_dec (1 - p2 * p2) 0 then None else Some (p0 * p1 * sqrt (1 - p2 * p2) / TWOPI).
(** getMsini (118-120): math.pow( 0, 1/3 ) is 0; of a negative number it raises ValueError *)
Definition rvMsini (mass p0 p1 p2 : R) : option R :=
  if Rlt_dec (1 - p2 * p2) 0 then None
  else if Rlt_dec p1 0 then None
  else Some (491 / 100000 * Rpower mass (2 / 3) * p0 * (if Req_EM_T p1 0 then 0 else Rpower p1 (1 / 3)) * sqrt (1 - p2 * p2)).

(** ** StellarOrbitModel *)
(** baseResult (127-169): distance and angle *)
Definition soTheta (inclin ascpos asclon v : R) : R := arctan2 (sin (v + asclon) * cos inclin) (cos (v + asclon)) + ascpos.
Definition soSsc (inclin asclon v : R) : R :=
  let svp := sin (v + asclon) * cos inclin in let cvp := cos (v + asclon) in sqrt (svp * svp + cvp * cvp).
Definition soResult (e a inclin ascpos asclon E : R) : R * R :=
  let r := radius e a (cos E) in
  let v := trueAnomaly e (cos E) (sin E) in
  (r * soSsc inclin asclon v, soTheta inclin ascpos asclon v).
(** toRect (171-184), toSpher (187-200) *)
Definition toRect (rp : R * R) : R * R := (fst rp * sin (snd rp), - fst rp * cos (snd rp)).
Definition toSpher (xy : R * R) : R * R := (sqrt (fst xy * fst xy + snd xy * snd xy), arctan2 (fst xy) (- snd xy)).

(** 299-326; the cosine that is -1 is replaced (300) *)
Definition soCosE (E : R) : R := if Req_EM_T (cos E) (-1) then - 0.99999 else cos E.
Definition soDTdv (inclin asclon v : R) : R :=
  let svp2 := sin (v + asclon) * sin (v + asclon) in
  let cvp2 := cos (v + asclon) * cos (v + asclon) in
  let ci := cos inclin in
  ci * (svp2 + cvp2) / (ci * ci * svp2 + cvp2).
Definition soSscP (inclin asclon v : R) : R :=
  sqrt (sin (v + asclon) * sin (v + asclon) * (cos inclin * cos inclin) + cos (v + asclon) * cos (v + asclon)).
Definition soDRdv (r inclin asclon v : R) : R :=
  r / soSscP inclin asclon v * (cos inclin * cos inclin - 1) * sin (v + asclon) * cos (v + asclon).

(** basePartial (268-392), spherical: the two partials to parameter k *)
Definition soPartial (x e a period inclin asclon E : R) (k : nat) : R * R :=
  let cE := soCosE E in
  let sE := sin E in
  let r := radius e a (cos E) in
  let v := trueAnomaly e (cos E) (sin E) in
  let svp := sin (v + asclon) in
  let cvp := cos (v + asclon) in
  let ssc := soSscP inclin asclon v in
  let dRdv := soDRdv r inclin asclon v in
  let dTdv := soDTdv inclin asclon v in
  match k with
  | 0%nat => (ssc * drde e a cE sE + dRdv * dvde e cE sE, dTdv * dvde e cE sE)
  | 1%nat => (ssc * drda e cE, 0)
  | 2%nat => (ssc * drdP x e a period cE sE + dRdv * dvdP x e period cE, dTdv * dvdP x e period cE)
  | 3%nat => (ssc * drdp e a cE sE + dRdv * dvdp e cE, dTdv * dvdp e cE)
  | 4%nat => (- r / ssc * (svp * svp) * cos inclin * sin inclin,
              - cvp * svp * sin inclin / (cvp * cvp + svp * svp * (cos inclin * cos inclin)))
  | 5%nat => (0, 1)
  | _ => (dRdv, dTdv)
  end.
(** 345-381: not spherical *)
Definition soRect (rho theta : R) (d : R * R) : R * R :=
  (sin theta * fst d + rho * cos theta * snd d, cos theta * -1 * fst d + rho * sin theta * snd d).

(** baseDerivative (202-265), spherical; not spherical it is put through soRect (256-263) *)
Definition soDerivative (e a period inclin asclon E : R) : R * R :=
  let cE := soCosE E in
  let sE := sin E in
  let r := radius e a (cos E) in
  let v := trueAnomaly e (cos E) (sin E) in
  let ssc := soSscP inclin asclon v in
  (ssc * drdx e a period cE sE
     + r / ssc * (sin (v + asclon) * cos (v + asclon) * (cos inclin * cos inclin - 1)) * dvdx e period cE,
   soDTdv inclin asclon v * dvdx e period cE).

(** baseParameterUnit (402-419): the powers of rad, xUnit and yUnit in the unit of parameter k *)
Definition soUnit (k : nat) : Z * Z * Z :=
  match k with
  | 0%nat => (0, 0, 0)%Z
  | 1%nat => (0, 0, 1)%Z
  | 2%nat => (0, -1, 0)%Z
  | _ => (1, 0, 0)%Z
  end.
(** RadialVelocityModel.baseParameterUnit (236-248) *)
Definition rvUnit (k : nat) : Z * Z * Z := match k with 0%nat => (1, -1, 0)%Z | _ => (0, 0, 1)%Z end.
