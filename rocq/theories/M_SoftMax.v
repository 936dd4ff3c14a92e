(** SoftMaxModel (SoftMaxModel.py:87-230) and the parts of NeuralNetUtilities it is made of (NeuralNetUtilities.py:48-306), for
    one data point x (a vector of length ndim), in real numbers.  Vectors and matrices are functions of their indices; a reshape of
    the parameters to ( ndout, ndim ) is the index n * ndim + k.  The number of outputs is that of the arrays.
    Left out: the loss of one axis when ndout or ndim is 1. *)
From Coq Require Import List Arith ZArith Reals Bool.
From Verif Require Import L_Sum.
Local Open Scope R_scope.


(** Connect.result (113-127): numpy.inner( xd, par ) *)
Definition connectResult (ndim : nat) (x par : nat -> R) (n : nat) : R := sum ndim (fun k => x k * par (n * ndim + k)%nat).
(** Connect.partial (129-140): i2o = n * ndim + arange( ndim ) *)
Definition connectPartial (ndim : nat) (x : nat -> R) (n j : nat) : R :=
  if ((n * ndim <=? j) && (j <? n * ndim + ndim))%nat then x (j - n * ndim)%nat else 0.
(** Connect.derivative (144-155) *)
Definition connectDerivative (ndim : nat) (par : nat -> R) (n k : nat) : R := par (n * ndim + k)%nat.

(** ConnectWithBias (157-183) when bias is true *)
Definition rasterResult (bias : bool) (ndim ndout : nat) (x par : nat -> R) (n : nat) : R :=
  if bias then connectResult ndim x par n + par (ndim * ndout + n)%nat else connectResult ndim x par n.
Definition rasterPartial (bias : bool) (ndim ndout : nat) (x : nat -> R) (n j : nat) : R :=
  if bias then
    if (j <? ndim * ndout)%nat then connectPartial ndim x n j
    else if (j - ndim * ndout =? n)%nat then 1 else 0
  else connectPartial ndim x n j.

(** the transfer functions: Identity (196-210), Logistic (234-256), Softmax (273-306) *)
Inductive transfer := Identity | Logistic | Softmax.

Definition logistic (x : R) : R := 1 / (1 + exp (- x)).
Definition logisticDerivative (x : R) : R := let e := exp x in e / ((1 + e) * (1 + e)).

Definition softmax (ndout : nat) (r : nat -> R) (n : nat) : R := exp (r n) / sum ndout (fun k => exp (r k)).
Definition softmaxDerivative (ndout : nat) (r : nat -> R) (k n : nat) : R :=
  let f i := exp (r i) in
  let norm := sum ndout f in
  let n2 := norm * norm in
  if (k =? n)%nat then (norm - f n) * f n / n2 else - (f k * f n / n2).

Definition transResult (t : transfer) (ndout : nat) (r : nat -> R) (n : nat) : R :=
  match t with Identity => r n | Logistic => logistic (r n) | Softmax => softmax ndout r n end.

(** derivative and pipe (51-62, 208-210, 250-256): output n, index j *)
Definition pipe (t : transfer) (ndout : nat) (r : nat -> R) (dr : nat -> nat -> R) (n j : nat) : R :=
  match t with
  | Identity => dr n j
  | Logistic => logisticDerivative (r n) * dr n j
  | Softmax => sum ndout (fun i => softmaxDerivative ndout r n i * dr i j)
  end.

(** Arctan (213-231), Heaviside (258-271): not used by SoftMaxModel *)
Definition arctanDerivative (x : R) : R := 1 / (1 + x * x).
Definition heaviside (x : R) : R := if Rle_dec 0 x then 1 else 0.
Definition heavisideDerivative (x : R) : R := 0.

(** SoftMaxModel.__init__ (109-128) *)
Definition npars (offset : bool) (ndim ndout : nat) : nat := if offset then (ndim * ndout + ndout)%nat else (ndim * ndout)%nat.
Definition transOf (normed : bool) (ndout : nat) : transfer :=
  if normed then (if (ndout =? 1)%nat then Logistic else Softmax) else Identity.

Section Model.
  Context (offset normed : bool) (ndim ndout : nat).
  (** baseResult (145-161), basePartial (163-183), baseDerivative (185-208) *)
  Definition baseResult (x par : nat -> R) (n : nat) : R :=
    transResult (transOf normed ndout) ndout (rasterResult offset ndim ndout x par) n.
  Definition basePartial (x par : nat -> R) (n j : nat) : R :=
    pipe (transOf normed ndout) ndout (rasterResult offset ndim ndout x par) (rasterPartial offset ndim ndout x) n j.
  Definition baseDerivative (x par : nat -> R) (n k : nat) : R :=
    pipe (transOf normed ndout) ndout (rasterResult offset ndim ndout x par) (connectDerivative ndim par) n k.
  (** the columns that basePartial (163-183) returns for output n: the list of wanted parameters is not looked at *)
  Definition partialRow (x par : nat -> R) (parlist : option (list nat)) (n : nat) : list R :=
    map (fun j => basePartial x par n j) (seq 0 (npars offset ndim ndout)).
  (** baseParameterUnit (219-230): Some i: 1 / xUnit[i]; None: no unit *)
  Definition baseParameterUnit (k : nat) : option nat :=
    if (ndim * ndout <? k)%nat then None else Some (if (ndim =? 1)%nat then 0%nat else (k mod ndim)%nat).
End Model.
