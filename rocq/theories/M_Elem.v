(** Model of the elementary models with one input: baseResult, basePartial and baseDerivative.
    One value of x (numpy works on all of them alike); floats are reals; params[k] is
    [nth k p 0].  The silent correction of zero or negative parameters (BaseModel.py:218-270) is
    left out: baseResult is taken at the parameters as given. *)
From Coq Require Import Reals List Arith Bool Lia.
Import ListNotations.
Local Open Scope R_scope.

(** A model: number of parameters, baseResult, the columns of basePartial, baseDerivative. *)
Record elem := mkElem
  { el_np : nat;
    el_f : R -> list R -> R;
    el_part : R -> list R -> nat -> R;
    el_dx : R -> list R -> R }.

(** basePartial without parlist: all columns; with parlist: the selection (the loops
    [for k,kp in enumerate( parlist ) : partial[:,k] = parts[kp]()], or partial[:,parlist]). *)
Definition basePartial (m : elem) (x : R) (p : list R) (parlist : option (list nat)) : list R :=
  map (el_part m x p) (match parlist with None => seq 0 (el_np m) | Some l => l end).

Local Notation "p '_[' k ]" := (nth k p 0) (at level 10, format "p _[ k ]").

(** LinearModel.baseResult (LinearModel.py:91-115) *)
Definition linear_f (np : nat) (part : R -> nat -> R) (x : R) (p : list R) : R :=
  fold_left (fun res k => res + p _[k] * part x k) (seq 0 np) 0.

Definition linear (np : nat) (part : R -> nat -> R) (dx : R -> list R -> R) : elem :=
  mkElem np (linear_f np part) (fun x _ k => part x k) dx.

(** PolynomialModel.basePartial (107-134): x is multiplied in the loop. *)
Definition poly_part (x : R) (k : nat) : R := Nat.iter k (fun y => y * x) 1.

(** PolynomialModel.baseDerivative (136-154): a polynomial with p[k] * k as parameters.
    [None] for params.size <> npmax does not occur: params has npmax members. *)
Definition poly_dx (np : nat) (x : R) (p : list R) : R :=
  if (np <=? 1)%nat then 0
  else linear_f (np - 1) poly_part x (skipn 1 (map (fun k => p _[k] * INR k) (seq 0 np))).

Definition poly (degree : nat) : elem := linear (degree + 1) poly_part (poly_dx (degree + 1)).

(** ChebyshevPolynomialModel.basePartial (117-148): the pair of part[:,i-1] and part[:,i]. *)
Fixpoint cheb_pair (x : R) (i : nat) : R * R :=       (* T_i, T_{i+1} *)
  match i with
  | O => (1, x)
  | S i => let '(a, b) := cheb_pair x i in (b, 2 * x * b - a)
  end.
Definition cheb_part (x : R) (k : nat) : R := fst (cheb_pair x k).

(** ChebyshevPolynomialModel.baseDerivative (150-184): the loop over i, with um, uu, der. *)
Definition cheb_step (x : R) (p : list R) (st : R * R * R) (i : nat) : R * R * R :=
  let '(um, uu, der) := st in
  let up := 2 * x * uu - um in
  (uu, up, der + INR (i + 1) * up * p _[i + 1]).

Definition cheb_dx (np : nat) (x : R) (p : list R) : R :=
  if (np <=? 1)%nat then 0
  else
    let n := (np - 1)%nat in
    let um := 1 in
    let der := um * p _[1] in
    if (n <=? 1)%nat then der
    else
      let uu := 2 * x in
      let der := der + 2 * uu * p _[2] in
      snd (fold_left (cheb_step x p) (seq 2 (n - 2)) (um, uu, der)).

Definition cheb (degree : nat) : elem := linear (degree + 1) cheb_part (cheb_dx (degree + 1)).

(** HarmonicModel (125-176) *)
Definition harm_part (period : R) (x : R) (kp : nat) : R :=
  let x := 2 * PI * x / period in
  let j := INR (1 + kp / 2) in
  if (kp mod 2 =? 0)%nat then cos (j * x) else sin (j * x).

Definition harm_dx (order : nat) (period : R) (x : R) (p : list R) : R :=
  let tp := 2 * PI / period in
  let x := tp * x in
  fold_left (fun df j => df + tp * INR (j + 1) * (p _[2 * j + 1] * cos (INR (j + 1) * x)
                                                  - p _[2 * j] * sin (INR (j + 1) * x)))
            (seq 0 order) 0.

Definition harmonic (order : nat) (period : R) : elem :=
  linear (2 * order) (harm_part period) (harm_dx order period).

(** SineAmpModel (116-159) *)
Definition sineamp (freq : R) : elem :=
  linear 2 (fun x k => match k with O => cos (2 * PI * freq * x) | _ => sin (2 * PI * freq * x) end)
    (fun x p => let tpf := 2 * PI * freq in
                tpf * (p _[1] * cos (tpf * x) - p _[0] * sin (tpf * x))).

(** PowerModel (111-145), for positive x *)
Definition power (ex : R) : elem :=
  linear 1 (fun x _ => Rpower x ex) (fun x p => p _[0] * ex * Rpower x (ex - 1)).

(** SineModel (142-207) *)
Definition sine : elem := mkElem 3
  (fun x p => let x := 2 * PI * x * p _[0] in p _[1] * cos x + p _[2] * sin x)
  (fun x p k =>
     let x := 2 * PI * x in
     let xf := x * p _[0] in
     let cxf := cos xf in
     let sxf := sin xf in
     match k with
     | 0%nat => x * p _[2] * cxf - x * p _[1] * sxf
     | 1%nat => cxf
     | _ => sxf
     end)
  (fun x p => let x := 2 * PI * x * p _[0] in
              2 * PI * p _[0] * (p _[2] * cos x - p _[1] * sin x)).

(** SineModel with phase=True (232-297) *)
Definition sine_phase : elem := mkElem 3
  (fun x p => let x := 2 * PI * x * p _[1] + p _[2] in p _[0] * sin x)
  (fun x p k =>
     let x := 2 * PI * x in
     let xf := x * p _[1] + p _[2] in
     let cxf := p _[0] * cos xf in
     match k with 0%nat => sin xf | 1%nat => cxf * x | _ => cxf end)
  (fun x p => let x := 2 * PI * x * p _[1] + p _[2] in p _[0] * cos x * (2 * PI) * p _[1]).

(** SineDriftModel (104-169) *)
Definition sinedrift : elem := mkElem 4
  (fun x p => let x := 2 * PI * x * (p _[0] + p _[3] * x) in p _[1] * cos x + p _[2] * sin x)
  (fun x p k =>
     let x0 := 2 * PI * x in
     let x3 := x0 * x in
     let xf := x0 * p _[0] + x3 * p _[3] in
     let cx := cos xf in
     let sx := sin xf in
     match k with
     | 0%nat => x0 * p _[2] * cx - x0 * p _[1] * sx
     | 1%nat => cx
     | 2%nat => sx
     | _ => x3 * p _[2] * cx - x3 * p _[1] * sx
     end)
  (fun x p => let xx := 2 * PI * x * (p _[0] + p _[3] * x) in
              2 * PI * (p _[0] + 2 * p _[3] * x) * (p _[2] * cos xx - p _[1] * sin xx)).

(** GaussModel (112-175) *)
Definition gauss_f (x : R) (p : list R) : R :=
  let s := 1 / p _[2] in
  let x := (x - p _[1]) * s in
  p _[0] * exp (- (1 / 2) * x * x).

Definition gaussm : elem := mkElem 3 gauss_f
  (fun x p k =>
     let a := p _[0] in
     let s := 1 / p _[2] in
     let x := (x - p _[1]) * s in
     let e := exp (- (1 / 2) * x * x) in
     match k with 0%nat => e | 1%nat => a * e * x * s | _ => a * e * x * x * s end)
  (fun x p => let dx := (p _[1] - x) / (p _[2] * p _[2]) in gauss_f x p * dx).

(** LorentzModel (128-195) *)
Definition lorentz : elem := mkElem 3
  (fun x p => let s2 := p _[2] * p _[2] in let x := x - p _[1] in p _[0] * s2 / (x * x + s2))
  (fun x p k =>
     let a := p _[0] in
     let s := Rabs (p _[2]) in
     let s2 := s * s in
     let x := x - p _[1] in
     let e := 1 / (x * x + s2) in
     match k with 0%nat => s2 * e | 1%nat => a * 2 * s2 * x * e * e | _ => a * 2 * s * x * x * e * e end)
  (fun x p => let x := x - p _[1] in
              let c2 := p _[2] * p _[2] in
              -2 * p _[0] * c2 * x / ((x * x + c2) * (x * x + c2))).

(** ExpModel (116-172); [sign] is -1 for decay=True, else 1 *)
Definition expm_f (sign x : R) (p : list R) : R := p _[0] * exp (sign * p _[1] * x).
Definition expm (sign : R) : elem := mkElem 2 (expm_f sign)
  (fun x p k => let e := exp (sign * p _[1] * x) in
                match k with O => e | _ => sign * p _[0] * e * x end)
  (fun x p => sign * p _[1] * expm_f sign x p).

(** PowerLawModel (102-161), for x > p_1 *)
Definition powerlaw : elem := mkElem 3
  (fun x p => p _[0] * Rpower (x - p _[1]) (p _[2]))
  (fun x p k =>
     let p0 := p _[0] in
     let xs := x - p _[1] in
     let p2 := p _[2] in
     match k with
     | 0%nat => Rpower xs p2
     | 1%nat => - p0 * p2 * Rpower xs (p2 - 1)
     | _ => p0 * Rpower xs p2 * ln xs
     end)
  (fun x p => p _[0] * p _[2] * Rpower (x - p _[1]) (p _[2] - 1)).

(** ArctanModel (93-153) *)
Definition arctan : elem := mkElem 3
  (fun x p => p _[0] * atan (p _[2] * (x - p _[1])))
  (fun x p k =>
     let xx := p _[2] * (x - p _[1]) in
     let xf := p _[0] / (1 + xx * xx) in
     match k with 0%nat => atan xx | 1%nat => - xf * p _[2] | _ => xf * (x - p _[1]) end)
  (fun x p => let x := p _[2] * (x - p _[1]) in p _[0] * p _[2] / (1 + x * x)).

(** LogisticModel (100-165) *)
Definition logistic : elem := mkElem 3
  (fun x p => let x := (p _[1] - x) / p _[2] in p _[0] / (1 + exp x))
  (fun x p k =>
     let a := p _[0] in
     let s := p _[2] in
     let x := p _[1] - x in
     let e := exp (x / s) in
     let f := 1 / (1 + e) in
     let f2 := f * f in
     match k with 0%nat => f | 1%nat => - a / s * f2 * e | _ => a * x / (s * s) * f2 * e end)
  (fun x p => let x := (p _[1] - x) / p _[2] in
              let e := exp x in
              p _[0] / p _[2] * e / ((1 + e) * (1 + e))).

(** EtalonModel (109-179) *)
Definition etalon : elem := mkElem 4
  (fun x p => let x := PI * x * p _[2] + p _[3] in
              let sx := sin x in p _[0] / (1 + p _[1] * sx * sx))
  (fun x p k =>
     let xx := PI * x * p _[2] + p _[3] in
     let sx := sin xx in
     let s2 := sx * sx in
     let dd := 1 / (1 + p _[1] * s2) in
     let d2 := dd * dd in
     let p3 := -2 * p _[0] * p _[1] * sx * cos xx * d2 in
     match k with
     | 0%nat => dd
     | 1%nat => - p _[0] * s2 * d2
     | 2%nat => PI * x * p3
     | _ => p3
     end)
  (fun x p => let xx := PI * x * p _[2] + p _[3] in
              let sx := sin xx in
              let dd := 1 + p _[1] * sx * sx in
              let dd := dd * dd in
              -2 * PI * p _[0] * p _[1] * p _[2] * sx * cos xx / dd).

(** EtalonDriftModel (99-180) at the input (x,y): as function of x.  baseDerivative raises
    AttributeError (a list has no attribute T, line 136); [etalondrift_d] are the two numbers it
    has computed by then. *)
Definition etalondrift (y : R) : elem := mkElem 5
  (fun x p => let x := PI * (p _[2] * x + p _[3] + p _[4] * y) in
              let sx := p _[1] * sin x in p _[0] / (1 + sx * sx))
  (fun x p k =>
     let xx := PI * (x * p _[2] + p _[3] + p _[4] * y) in
     let sx := sin xx in
     let s2 := sx * sx in
     let p1 := p _[1] * p _[1] in
     let dd := 1 / (1 + p1 * s2) in
     let d2 := dd * dd in
     let p3 := -2 * PI * p _[0] * p1 * sx * cos xx * d2 in
     match k with
     | 0%nat => dd
     | 1%nat => -2 * p _[0] * p _[1] * s2 * d2
     | 2%nat => x * p3
     | 3%nat => p3
     | _ => y * p3
     end)
  (fun x p =>
     let xx := PI * (x * p _[2] + p _[3] + p _[4] * y) in
     let sx := sin xx in
     let p1 := p _[1] * p _[1] in
     let dd := 1 + p1 * sx * sx in
     let dd := dd * dd in
     let df := -2 * PI * p _[0] * p1 * p _[2] * sx * cos xx / dd in
     df * p _[2]).

(** PadeModel (147-258): a loop over the parameters k0 .. k0+n-1 that adds p_k * xx. *)
Definition pade_sum (x : R) (p : list R) (k0 n : nat) : R :=
  fst (fold_left (fun st k => (fst st + p _[k] * snd st, snd st * x)) (seq k0 n) (0, 1)).

Definition pade_f (num den : nat) (x : R) (p : list R) : R :=
  pade_sum x p 0 (num + 1) / pade_sum x p (num + 1) (den + 1).

Definition pade_part (num den : nat) (x : R) (p : list R) (k : nat) : R :=
  let nm := pade_sum x p 0 (num + 1) in
  let dn := pade_sum x p (num + 1) (den + 1) in
  if (k <=? num)%nat then poly_part x k / dn
  else - poly_part x (k - (num + 1)) * nm / (dn * dn).

(** the loops 242-247 and 252-256: (d, xx, s) for the derivative, the power and the sum *)
Definition pade_dstep (x : R) (p : list R) (k0 : nat) (st : R * R * R) (k : nat) : R * R * R :=
  let '(d, xx, s) := st in
  let d := d + INR (k - k0) * p _[k] * xx in
  let xx := xx * x in
  (d, xx, s + p _[k] * xx).

Definition pade_dsum (x : R) (p : list R) (k0 n : nat) : R * R :=
  let '(d, xx, s) := fold_left (pade_dstep x p k0) (seq (k0 + 1) n) (0, 1, p _[k0] * 1) in (d, s).

Definition pade_dx (num den : nat) (x : R) (p : list R) : R :=
  let '(dnm, nm) := pade_dsum x p 0 num in
  let '(ddn, dn) := pade_dsum x p (num + 1) den in
  (dnm * dn - ddn * nm) / (dn * dn).

Definition pade (num den : nat) : elem :=
  mkElem (num + den + 2) (pade_f num den) (pade_part num den) (pade_dx num den).

(** PseudoVoigtModel (126-194), without parlist *)
Definition pseudovoigt : elem := mkElem 4
  (fun x p => p _[3] * el_f lorentz x (firstn 3 p) + (1 - p _[3]) * el_f gaussm x (firstn 3 p))
  (fun x p k =>
     let pars := firstn 3 p in
     if (k <? 3)%nat then p _[3] * el_part lorentz x pars k + (1 - p _[3]) * el_part gaussm x pars k
     else el_f lorentz x pars - el_f gaussm x pars)
  (fun x p => p _[3] * el_dx lorentz x (firstn 3 p) + (1 - p _[3]) * el_dx gaussm x (firstn 3 p)).

(** PseudoVoigtModel.basePartial with the parlist FixedModel.partial hands over (FixedModel.py:
    293, 301): a numpy array, which has copy() but no remove() (lines 163-164: AttributeError)
    when 3 is in it. *)
Definition pseudovoigt_partial (x : R) (p : list R) (parlist : option (list nat)) : option (list R) :=
  match parlist with
  | Some l => if existsb (Nat.eqb 3) l then None else Some (basePartial pseudovoigt x p parlist)
  | None => Some (basePartial pseudovoigt x p None)
  end.
