(** Sines with an amplitude or a frequency that varies: PolySineAmpModel.py:75-209, SineSplineModel.py:90-224,
    SineSplineDriftModel.py:81-248 and PolynomialModel.py:107-154, in real numbers.  Parameters are a list, a row of partials
    a function of the column.  Left out: parlist (not used in these models), attributes, copies. *)
From Coq Require Import List Arith ZArith Reals Bool.
From Verif Require Import L_Sum M_Splines.
Import ListNotations.
Local Open Scope R_scope.

Definition par (params : list R) (k : nat) : R := nth k params 0.
(** LinearModel.baseResult (LinearModel.py:91-115): the loop over the columns *)
Definition linear (np : nat) (params : list R) (row : nat -> R) : R := sum np (fun k => par params k * row k).

(** ** PolynomialModel *)
(** basePartial (123-129): x is multiplied in each turn *)
Fixpoint powers (x : R) (k : nat) : R := match k with O => 1 | S j => powers x j * x end.
(** result of a PolynomialModel of npmax parameters *)
Definition polyResult (npmax : nat) (x : R) (params : list R) : R := linear npmax params (powers x).
(** numpy's product of two arrays; None: ValueError *)
Definition bcast (a b : list R) : option (list R) :=
  if (length a =? length b)%nat then Some (map (fun p => fst p * snd p) (combine a b))
  else if (length b =? 1)%nat then Some (map (fun x => x * nth 0 b 0) a)
  else if (length a =? 1)%nat then Some (map (fun x => nth 0 a 0 * x) b)
  else None.
(** baseDerivative (148-154) *)
Definition polyDerivative (npmax : nat) (x : R) (params : list R) : option R :=
  if (npmax <=? 1)%nat then Some 0
  else match bcast params (map INR (seq 0 npmax)) with
       | None => None
       | Some p => Some (polyResult (npmax - 1) x (tl p))
       end.

(** ** PolySineAmpModel *)
Section PolySineAmp.
  Context (degree : nat) (frequency : R).
  (** basePartial (140-153): cx and sx are multiplied by y in each turn *)
  Fixpoint times (a y : R) (k : nat) : R := match k with O => a | S j => times a y j * y end.
  Definition psaPartial (x y : R) (n : nat) : R :=
    let np := (degree + 1)%nat in
    let cx := cos (2 * PI * frequency * x) in
    let sx := sin (2 * PI * frequency * x) in
    if (n <? np)%nat then times cx y n else times sx y (n - np).
  Definition psaResult (x y : R) (params : list R) : R := linear (2 * degree + 2) params (psaPartial x y).
  (** baseDerivative (167-179).  pm.derivative( y, params[np:] ) *)
  Definition psaDerivative (x y : R) (params : list R) : option (R * R) :=
    let np := (degree + 1)%nat in
    let tpf := 2 * PI * frequency in
    let cx := cos (tpf * x) in
    let sx := sin (tpf * x) in
    let d0 := tpf * (polyResult np y (skipn np params) * cx - polyResult np y (firstn np params) * sx) in
    match polyDerivative np y (firstn np params), polyDerivative np y (skipn np params) with
    | Some dc, Some ds => Some (d0, dc * cx + ds * sx)
    | _, _ => None
    end.
  (** baseName (186-197): of the terms with the cosine and those with the sine: the number of the parameter and the power of y *)
  Definition psaName : list (nat * nat) * list (nat * nat) :=
    let np := (degree + 1)%nat in
    let more f := map f (seq 2 (np - 2)) in
    ((0, 0)%nat :: (if (1 <? np)%nat then [(1, 1)%nat] else []) ++ more (fun k => (k, k)),
     (np, 0)%nat :: (if (1 <? np)%nat then [(np + 1, 1)%nat] else []) ++ more (fun k => (np + k, np + k)%nat)).
  (** baseParameterUnit (208-209): the power of xUnit[1] by which yUnit is divided *)
  Definition psaUnit (k : nat) : nat := (k mod (degree + 1))%nat.
End PolySineAmp.

(** ** Splines as part of a model *)
(** SplinesModel.result with a list of parameters, the surplus is not used; None: IndexError when there are too few *)
Definition splResult (order : Z) (knots xs : list R) (params : list R) : option (list R) :=
  if (length params <? Z.to_nat (npar order knots))%nat then None else M_Splines.baseResult order knots xs (par params).
(** SplinesModel.baseDerivative (SplinesModel.py:229-245), order >= 0 *)
Definition splDerivative (order : nat) (knots xs params : list R) : option (list R) :=
  let npb := (order + length knots - 1)%nat in
  let ff := map INR (seq 0 (order + 1)) ++ repeat 3 (npb - order - 1) in
  match bcast params ff with
  | None => None
  | Some p => splResult (Z.of_nat order - 1) knots xs (tl p)
  end.

(** pointwise combination of arrays, all of one length *)
Definition pts (xs a b : list R) : list (R * (R * R)) := combine xs (combine a b).

(** ** SineSplineModel; nh is half the number of parameters *)
Section SineSpline.
  Context (frequency : R) (order : nat) (knots : list R).
  Let nh : nat := (order + length knots - 1)%nat.
  (** basePartial (143-165) *)
  Definition ssRow (x : R) (r : nat -> R) (k : nat) : R :=
    let cx := cos (2 * PI * frequency * x) in
    let sx := sin (2 * PI * frequency * x) in
    if (k <? nh)%nat then cx * r k else sx * r (k - nh)%nat.
  Definition ssPartial (xs : list R) : option (list (nat -> R)) :=
    match M_Splines.basePartial (Z.of_nat order) knots xs with
    | None => None
    | Some rows => Some (map (fun xr => ssRow (fst xr) (snd xr)) (combine xs rows))
    end.
  Definition ssResult (xs params : list R) : option (list R) :=
    match ssPartial xs with None => None | Some rows => Some (map (linear (2 * nh) params) rows) end.
  (** getAmplitudes (188-202) *)
  Definition ssAmps (xs params : list R) : option (list R * list R) :=
    match splResult (Z.of_nat order) knots xs (firstn nh params), splResult (Z.of_nat order) knots xs (skipn nh params) with
    | Some a, Some b => Some (a, b)
    | _, _ => None
    end.
  (** baseDerivative (167-186) *)
  Definition ssDerivative (xs params : list R) : option (list R) :=
    let tpf := 2 * PI * frequency in
    match ssAmps xs params, splDerivative order knots xs params, splDerivative order knots xs params with
    | Some (a0, a1), Some cadx, Some sadx =>
        Some (map (fun q => let '(x, (a, b), (c, s)) := q in
                            tpf * (c * cos (tpf * x) - a * sin (tpf * x) + s * sin (tpf * x) + b * cos (tpf * x)))
                  (combine (pts xs a0 a1) (combine cadx sadx)))
    | _, _, _ => None
    end.
  (** baseParameterUnit (221-224): the power of xUnit by which yUnit is divided *)
  Definition ssUnit (k : nat) : nat := let k := (k mod nh)%nat in if (order <? k)%nat then order else k.
End SineSpline.

(** ** SineSplineDriftModel; nd parameters of the drift, two times nh of the splines *)
Section SineSplineDrift.
  Context (order degree : nat) (knots : list R).
  Let nd : nat := (degree + 1)%nat.
  Let nh : nat := (order + length knots - 1)%nat.
  (** 109: the number of parameters *)
  Definition sdNp : nat := (2 * (length knots + order - 1) + degree + 1)%nat.
  (** getAmplitudes (211-226) *)
  Definition sdAmps (xs params : list R) : option (list R * list R) :=
    match splResult (Z.of_nat order) knots xs (firstn nh (skipn nd params)), splResult (Z.of_nat order) knots xs (skipn (nd + nh) params) with
    | Some a, Some b => Some (a, b)
    | _, _ => None
    end.
  (** baseResult (141-156) *)
  Definition sdPhase (params : list R) (x : R) : R := 2 * PI * x * polyResult nd x (firstn nd params).
  Definition sdResult (xs params : list R) : option (list R) :=
    match sdAmps xs params with
    | None => None
    | Some (a0, a1) =>
        Some (map (fun q => let '(x, (a, b)) := q in a * cos (sdPhase params x) + b * sin (sdPhase params x)) (pts xs a0 a1))
    end.
  (** basePartial (158-185) *)
  Definition sdRow (params : list R) (x a b : R) (r : nat -> R) (k : nat) : R :=
    let cx := cos (sdPhase params x) in
    let sx := sin (sdPhase params x) in
    let dpm := 2 * PI * x * powers x k in
    if (k <? nd)%nat then b * cx * dpm - a * sx * dpm
    else if (k <? nd + nh)%nat then cx * r (k - nd)%nat
    else sx * r (k - (nd + nh))%nat.
  Definition sdPartial (xs params : list R) : option (list (nat -> R)) :=
    match sdAmps xs params, M_Splines.basePartial (Z.of_nat order) knots xs with
    | Some (a0, a1), Some rows =>
        Some (map (fun q => let '(x, (a, b), r) := q in sdRow params x a b r) (combine (pts xs a0 a1) rows))
    | _, _ => None
    end.
  (** baseDerivative (187-209): the splines and the polynomial are given all parameters *)
  Definition sdDerivative (xs params : list R) : option (list R) :=
    if forallb (fun x => match polyDerivative nd x params with Some _ => true | None => false end) xs then
      let pd x := match polyDerivative nd x params with Some d => d | None => 0 end in
      match sdAmps xs params, splDerivative order knots xs params, splDerivative order knots xs params with
      | Some (a0, a1), Some cadx, Some sadx =>
          Some (map (fun q => let '(x, (a, b), (c, s)) := q in
                              let cx := cos (sdPhase params x) in let sx := sin (sdPhase params x) in
                              2 * PI * (c * cx - a * (sx * pd x) + s * sx + b * (cx * pd x)))
                    (combine (pts xs a0 a1) (combine cadx sadx)))
      | _, _, _ => None
      end
    else None.
  (** baseParameterUnit (245-248): k modulo half the number of parameters, times two to be a whole number; capped at the order.
      The power of xUnit by which yUnit is divided, times two. *)
  Definition sdUnit2 (k : nat) : nat := let k2 := ((2 * k) mod sdNp)%nat in if (2 * order <? k2)%nat then (2 * order)%nat else k2.
End SineSplineDrift.
