(** Specifications for order problems, independent of the engines. *)
From Coq Require Import List Arith ZArith Permutation Sorted Reals.
From Verif Require Import M_Order.
Import ListNotations.

(** What numpy guarantees about the draws of one executeOnce call on a list of length n:
    randint( m ) < m, permutation returns a permutation; and what the calling code
    guarantees: src <> des, the loop variable t lies in range( 2, n - 1 ), kmin < n. *)
Definition valid_draw {A} (n : nat) (d : order_draw A) : Prop :=
  match d with
  | DMove src des g rnd =>
      src < n /\ des < n /\ src <> des /\ 1 <= g /\ (forall i t, 0 < t -> rnd i t < t)
  | DReverse src g rnd => src < n /\ 1 <= g /\ (forall i t, 0 < t -> rnd i t < t)
  | DShuffle src g perm rnd =>
      src < n /\ 1 <= g /\ (forall t l, Permutation l (perm t l)) /\
      (forall i t, 0 < t -> rnd i t < t)
  | DSwitch src des => src < n /\ des < n /\ src <> des
  | DLoop ks cross => ks < n /\ (forall t, cross = Some t -> 2 <= t < n - 1)
  | DNear ks kmin => ks < n /\ 1 <= kmin < n
  | DStart perm => forall l, Permutation l (perm l)
  end.

Definition valid_event {A} (n m : nat) (e : order_event A) : Prop :=
  match e with
  | EEngine kw low d => kw < m /\ valid_draw n d
  | ESort => True
  | ECopy s d => s < m /\ d < m
  end.

(** A tour over n nodes visits each of 0..n-1 exactly once. *)
Definition is_tour (n : nat) (l : list nat) : Prop := Permutation (seq 0 n) l.

(** Only position k of a list may have changed. *)
Definition only_changed {A} (k : nat) (l l' : list A) : Prop :=
  length l' = length l /\ forall j, j <> k -> nth_error l' j = nth_error l j.

(** Length of the closed tour a0 -> a1 -> ... -> an -> a0. *)
Fixpoint path_length {A} (d : A -> A -> R) (a : A) (l : list A) (home : A) : R :=
  match l with
  | [] => d a home
  | b :: r => (d a b + path_length d b r home)%R
  end.
Definition closed_length {A} (d : A -> A -> R) (l : list A) : R :=
  match l with
  | [] => 0%R
  | a :: r => path_length d a r a
  end.

(** [fails once k j w v]: the tries k .. k+j-1, each made on the ensemble the previous try
    left behind, all returned 0 and took the ensemble from [w] to [v]. *)
Inductive fails {W} (once : nat -> W -> W * nat) : nat -> nat -> W -> W -> Prop :=
| fails_none k w : fails once k 0 w w
| fails_more k j w v u : once k w = (v, 0) -> fails once (S k) j v u -> fails once k (S j) w u.
