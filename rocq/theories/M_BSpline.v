(** bspline.py:52-311, splinelab.augknt (splinelab.py:23-48) and BSplinesModel.py:155-264, in real numbers.  An array is a
    list of numbers, a matrix a list of rows.  Left out: memoize (it remembers what was calculated before), plotting,
    exceptions on an empty list of knots, the making of knots out of a range. *)
From Coq Require Import List Arith Reals Bool.
Import ListNotations.
Local Open Scope R_scope.

(** numpy's elementwise operations on two arrays of the same length *)
Definition zip {A B C : Type} (f : A -> B -> C) (a : list A) (b : list B) : list C := map (fun p => f (fst p) (snd p)) (combine a b).
(** a[:-k] and a[k:] *)
Definition upto {A : Type} (k : nat) (a : list A) : list A := firstn (length a - k) a.
Definition from {A : Type} (k : nat) (a : list A) : list A := skipn k a.
(** numpy.where( den != 0.0, num / den, 0.0 ), as at 119-125, 223-225 *)
Definition quot (num den : R) : R := if Req_EM_T den 0 then 0 else num / den.

(** splinelab.augknt (23-48) *)
Definition augknt (knots : list R) (order : nat) : list R := repeat (hd 0 knots) order ++ knots ++ repeat (last knots 0) order.

(** The attributes knot_vector, p and last, last_knot *)
Record bspl := mkB { kv : list R; deg : nat; lastkn : option (list R) }.

(** __init__ (69-80) *)
Definition lastKnot (t : list R) (order : nat) : list R :=
  map (fun i => if (i =? length t - order - 1)%nat then nth i t 0 else nth 0 t 0 - 1) (seq 0 (length t)).
Definition Bspline (t : list R) (order : nat) (last : bool) : bspl := mkB t order (if last then Some (lastKnot t order) else None).

(** __basis0 (83-91) *)
Definition upper (b : bspl) (xi : R) : list bool :=
  let up := map (fun k => if Rlt_dec xi k then true else false) (from 1 (kv b)) in
  match lastkn b with
  | None => up
  | Some l => zip orb up (map (fun k => if Req_EM_T xi k then true else false) (from 1 l))
  end.
Definition basis0 (b : bspl) (xi : R) : list R :=
  zip (fun (lo : R) (up : bool) => if Rle_dec lo xi then if up then 1 else 0 else 0) (upto 1 (kv b)) (upper b xi).

(** __basis (93-128) without and with derivatives; terms is for p >= 1 *)
Definition terms (t : list R) (p : nat) (num1 num2 : list R) (b1 : list R) : list R :=
  let den1 := zip Rminus (from p t) (upto p t) in
  let den2 := zip Rminus (from (p + 1) t) (from 1 (upto p t)) in
  let first_term := zip quot num1 den1 in
  let second_term := zip quot num2 den2 in
  zip Rplus (zip Rmult (upto 1 first_term) (upto 1 b1)) (zip Rmult second_term (from 1 b1)).
Fixpoint basis (b : bspl) (xi : R) (p : nat) : list R :=
  match p with
  | O => basis0 b xi
  | S q =>
      let t := kv b in
      terms t p (map (fun k => xi - k) (upto p t)) (map (fun k => k - xi) (from (p + 1) t)) (basis b xi q)
  end.
(** __call__ (131-137) *)
Definition call (b : bspl) (xi : R) : list R := basis b xi (deg b).
(** d (139-145) *)
Definition dcall (b : bspl) (xi : R) : list R :=
  match deg b with
  | O => basis0 b xi
  | S q =>
      let t := kv b in let p := S q in
      terms t p (map (fun _ => INR p) (upto p t)) (map (fun _ => - INR p) (from (p + 1) t)) (basis b xi q)
  end.

(** __diff_internal (190-227), p > 0 *)
Definition diff_internal (b : bspl) : list (list R * bspl) :=
  let t := kv b in let p := deg b in
  let denom1 := zip Rminus (upto 1 (from p t)) (upto (p + 1) t) in
  let denom2 := zip Rminus (from (p + 1) t) (from 1 (upto p t)) in
  [(map (quot (INR p)) denom1, Bspline (upto 1 t) (p - 1) false);
   (map (quot (- INR p)) denom2, Bspline (from 1 t) (p - 1) false)].

(** diff (230-266); the first factor, 1., is an array of ones *)
Definition ones (b : bspl) : list R := repeat 1 (length (call b 0)).
Fixpoint diff_terms (order : nat) (b : bspl) : list (list R * bspl) :=
  match order with
  | O => [(ones b, b)]
  | S n => flat_map (fun cb => map (fun cn => (zip Rmult (fst cb) (fst cn), snd cn)) (diff_internal (snd cb))) (diff_terms n b)
  end.
Definition diff (order : nat) (b : bspl) (x : R) : list R :=
  if (order =? 0)%nat then call b x
  else if (deg b <? order)%nat then repeat 0 (length (call b 0))
  else fold_left (zip Rplus) (map (fun cb => zip Rmult (fst cb) (call (snd cb) x)) (diff_terms order b)) (repeat 0 (length (call b 0))).

(** collmat (269-311), followed by Tools.toArray( ..., ndim=2 ) (Tools.py:282-298): numpy.squeeze removes the dimensions of
    length 1; a row is made of the array that is left, so a single column becomes a row. *)
Definition collmat (deriv_order : nat) (b : bspl) (tau : list R) : list (list R) :=
  let A := map (diff deriv_order b) tau in
  if (length (call b 0) =? 1)%nat then [map (fun row => nth 0 row 0) A] else A.

(** ** BSplinesModel *)
(** 165, 174-175, 199-201 *)
Definition npbase (knots : list R) (order : nat) : nat := (order + length knots - 1)%nat.
Definition bsp (knots : list R) (order : nat) : bspl := Bspline (augknt knots order) order true.

(** basePartial (204-231); None: ValueError *)
Definition outside (knots : list R) (x : R) : bool :=
  if Rlt_dec x (hd 0 knots) then true else if Rlt_dec (last knots 0) x then true else false.
Definition basePartial (knots : list R) (order : nat) (xs : list R) : option (list (list R)) :=
  if existsb (outside knots) xs then None else Some (collmat 0 (bsp knots order) xs).

(** LinearModel.baseResult (LinearModel.py:91-115) *)
Definition dot (np : nat) (params row : list R) : R :=
  fold_left (fun s k => s + nth k params 0 * nth k row 0) (seq 0 np) 0.
Definition baseResult (knots : list R) (order : nat) (params xs : list R) : option (list R) :=
  match basePartial knots order xs with
  | None => None
  | Some part => Some (map (dot (npbase knots order) params) part)
  end.

(** baseDerivative (233-249); eps is an attribute, 0 by default.  None: numpy.inner raises ValueError as the lengths differ *)
Definition baseDerivative (eps : R) (knots : list R) (order : nat) (params xs : list R) : option (list R) :=
  let xd := map (fun x => if Req_EM_T x (last knots 0) then (1 - eps) * last knots 0 else x) xs in
  let part := collmat 1 (bsp knots order) xd in
  if forallb (fun row => (length row =? npbase knots order)%nat) part then Some (map (dot (npbase knots order) params) part) else None.

(** copy (158-160, 176, 178-179): the knots, the order and eps of the copy *)
Definition copied (knots : list R) (order : nat) (eps : R) : list R * nat * R := (knots, order, 0).
