(** VoigtModel.py: the profile, its partials and its derivative.  One value of x; floats are reals, complex numbers are pairs of reals.
    scipy.special.wofz is a parameter. *)
From Coq Require Import Reals List.
From Coquelicot Require Import Coquelicot.
From Verif Require Import M_Elem.
Import ListNotations.
Local Open Scope C_scope.

Section Voigt.
Variable wofz : C -> C.
Local Notation "p '_[' k ]" := (nth k p 0%R) (at level 10, format "p _[ k ]").
Definition sigma (p : list R) : R := (p _[2] * sqrt 2)%R.
Definition z0 (p : list R) : C := Ci * p _[3] / sigma p.
Definition zz (x : R) (p : list R) : C := RtoC ((x - p _[1]) / sigma p)%R + z0 p.

(** baseResult (100-122) *)
Definition voigt_f (x : R) (p : list R) : R := (p _[0] * Re (wofz (zz x p)) / Re (wofz (z0 p)))%R.

(** basePartial (161-188): the items of parts *)
Definition voigt_part (x : R) (p : list R) (k : nat) : R :=
  let z := zz x p in let zo := z0 p in
  let wofz0 := wofz zo in let wofzz := wofz z in
  let dwd0 := 2 * Ci / sqrt PI - 2 * zo * wofz0 in
  let dwdz := 2 * Ci / sqrt PI - 2 * z * wofzz in
  let rwz := Re wofzz in let rw0 := Re wofz0 in
  let a := (p _[0] / rw0)%R in let a2 := (a / rw0)%R in
  let dzdp1 := RtoC (-1 / sigma p)%R in let d0dp2 := - zo / p _[2] in let dzdp2 := - z / p _[2] in let dzdp3 := Ci / sigma p in
  match k with
  | 0%nat => rwz / rw0
  | 1%nat => a * Re (dwdz * dzdp1)%C
  | 2%nat => a2 * (Re (dwdz * dzdp2)%C * rw0 - Re (dwd0 * d0dp2)%C * rwz)
  | 3%nat => a2 * (Re (dwdz * dzdp3)%C * rw0 - Re (dwd0 * dzdp3)%C * rwz)
  | _ => 0
  end%R.

(** baseDerivative (198-230) *)
Definition voigt_dx (x : R) (p : list R) : R :=
  let z := zz x p in
  let wofz0 := Re (wofz (z0 p)) in let dwdz := 2 * Ci / sqrt PI - 2 * z * wofz z in
  Re (RtoC (p _[0]) * dwdz / RtoC (wofz0 * sigma p)%R).

(** VoigtModel.__init__ (76-94): four parameters; the selection with parlist (190-194) is that of the other models *)
Definition voigt : elem := mkElem 4 voigt_f voigt_part voigt_dx.
End Voigt.
