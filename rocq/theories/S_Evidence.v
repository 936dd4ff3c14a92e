(** What a likelihood and an evidence are, without the fitter. *)
From Coquelicot Require Import Coquelicot.
From Coq Require Import List Arith Reals.
From Verif Require Import L_Sum.
Local Open Scope R_scope.

(** the density at y of the normal distribution with mean mu and standard deviation s *)
Definition normal (mu s y : R) : R := exp (- (((y - mu) / s) * ((y - mu) / s)) / 2) / (s * sqrt (2 * PI)).

(** the log of the likelihood of the data y for the means f and standard deviations s; a data point of weight w counts as w points *)
Definition logLik (m : nat) (w s y f : nat -> R) : R := sum m (fun i => w i * ln (normal (f i) (s i) (y i))).

(** a linear model with a fixed part c *)
Definition linear (n : nat) (c : nat -> R) (D : nat -> nat -> R) (th : nat -> R) (i : nat) : R := c i + sum n (fun j => D i j * th j).

(** p with the number of index j replaced by t *)
Definition put (p : nat -> R) (j : nat) (t : R) : nat -> R := fun i => if (i =? j)%nat then t else p i.

(** integral over the whole real line *)
Definition whole (f : R -> R) (l : R) : Prop := is_RInt_gen f (Rbar_locally m_infty) (Rbar_locally p_infty) l.

(** g is f integrated over the whole line in the coordinates 0 .. k-1, one after the other *)
Inductive integral : nat -> ((nat -> R) -> R) -> ((nat -> R) -> R) -> Prop :=
| int_none f : integral 0 f f
| int_next k f g h : integral k f g -> (forall p, whole (fun t => g (put p k t)) (h p)) -> integral (S k) f h.

Fixpoint prod (n : nat) (f : nat -> R) : R := match n with O => 1 | S m => prod m f * f m end.

(** H = L * transpose( L ) with L lower triangular and positive on the diagonal: H is symmetric and positive definite *)
Definition cholesky (n : nat) (H L : nat -> nat -> R) : Prop :=
  (forall j l, (j < l)%nat -> L j l = 0) /\ (forall l, (l < n)%nat -> 0 < L l l) /\
  forall j k, (j < n)%nat -> (k < n)%nat -> H j k = sum n (fun l => L j l * L k l).

(** det is the determinant of such matrices *)
Definition isDet (det : nat -> (nat -> nat -> R) -> R) (n : nat) : Prop :=
  forall H L, cholesky n H L -> det n H = prod n (fun l => L l l) * prod n (fun l => L l l).
