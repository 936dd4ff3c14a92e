(** What is asked of the fitters and of the linear algebra they use. *)
From Coq Require Import List Arith Reals Bool.
From Verif Require Import L_Sum M_Fitter.
Import ListNotations.
Local Open Scope R_scope.

Definition delta (k l : nat) : R := if (k =? l)%nat then 1 else 0.

(** numpy.linalg.solve gives a solution or raises *)
Definition solver (solve : nat -> mat -> vec -> option vec) : Prop := forall n H v q, solve n H v = Some q ->
  forall k, (k < n)%nat -> sum n (fun l => H k l * q l) = v k.

(** dot( inv( r ), q^T ), where A = q r, the columns of q are orthonormal *)
Definition qrsolver (qrinv : nat -> nat -> mat -> option mat) : Prop := forall n m A M, qrinv n m A = Some M ->
  exists q r ri : mat,
    (forall i k, (i < n)%nat -> (k < m)%nat -> A i k = sum m (fun l => q i l * r l k)) /\
    (forall k l, (k < m)%nat -> (l < m)%nat -> sum n (fun i => q i k * q i l) = delta k l) /\
    (forall k l, (k < m)%nat -> (l < m)%nat -> sum m (fun j => r k j * ri j l) = delta k l) /\
    (forall k i, (k < m)%nat -> (i < n)%nat -> M k i = sum m (fun l => ri k l * q i l)).

(** A parameter takes part in the fit *)
Definition free (keep : option (list (nat * R))) (s : fst8) (j : nat) : Prop :=
  match keep with
  | Some kp => ~ In j (map fst kp)
  | None => match f_index s with None => True | Some fi => In j fi end
  end.

(** An object as made by the constructor *)
Definition made (m : pmodel) (s : fst8) : Prop :=
  match f_index s with None => True | Some fi => exists kept, fi = filter (fun j => negb (existsb (Nat.eqb j) kept)) (seq 0 (m_np m)) end.
Definition dict (keep : option (list (nat * R))) : Prop := match keep with None => True | Some kp => NoDup (map fst kp) end.

(** positive accuracies, weights not negative *)
Definition fair (m : pmodel) (weights acc : option vec) : Prop :=
  (forall w, weights = Some w -> forall i, (i < m_n m)%nat -> 0 <= w i) /\ (forall a, acc = Some a -> forall i, (i < m_n m)%nat -> 0 < a i).

(** The weight of a datum: its weight divided by the square of its accuracy *)
Definition wgt_of (weights acc : option vec) (i : nat) : R :=
  match weights, acc with
  | None, None => 1
  | Some w, None => w i
  | None, Some a => / (a i) ^ 2
  | Some w, Some a => w i / (a i) ^ 2
  end.

(** Linear in its parameters; an offset comes from parameters fixed in the model. *)
Definition linear (m : pmodel) (off : vec) (D : mat) : Prop :=
  forall p i, (i < m_n m)%nat -> m_res m p i = off i + sum (m_np m) (fun j => D i j * p j) /\ (forall j, (j < m_np m)%nat -> m_par m p i j = D i j).

(** weighted squares of the data and of the rows of normalize *)
Definition goal (m : pmodel) (s : fst8) (y w p : vec) : R :=
  sum (m_n m) (fun i => w i * (y i - m_res m p i) ^ 2) +
  sum (f_nrow s) (fun i => f_nwgt s i * (f_ndat s i - sum (m_np m) (fun j => f_ndf s i j * p j)) ^ 2).

(** one column: enough for the examples *)
Definition solve1 (n : nat) (H : mat) (v : vec) : option vec :=
  if (n =? 1)%nat then if Req_EM_T (H 0 0)%nat 0 then None else Some (fun _ => v 0%nat / H 0%nat 0%nat) else None.
Definition qr1 (n m : nat) (A : mat) : option mat :=
  if (m =? 1)%nat then if Rlt_dec 0 (sum n (fun i => A i 0%nat ^ 2)) then Some (fun _ i => A i 0%nat / sum n (fun i => A i 0%nat ^ 2)) else None else None.
