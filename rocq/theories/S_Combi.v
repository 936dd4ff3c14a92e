(** What a CombiModel should be (CombiModel.py docstring). *)
From Coq Require Import List Arith Reals Bool.
From Verif Require Import M_Combi S_Chain.
Import ListNotations.

(** The k-th parameter of the model is tied over the copies. *)
Definition has (d : dict) (k : nat) : bool := existsb (fun kv => fst kv =? k) d.
Definition tied (add mul : dict) (k : nat) : bool := has add k || has mul k.

(** Copy r has its parameter k at j = k + r * nmp of the list of all parameters of all copies; it is a
    parameter of the combination when it belongs to the first copy or is not tied. *)
Definition firstb (nmp : nat) (add mul : dict) (j : nat) : bool := (j <? nmp) || negb (tied add mul (j mod nmp)).
Definition cnt (nmp : nat) (add mul : dict) (j : nat) : nat := length (filter (firstb nmp add mul) (seq 0 j)).

(** Its number among the parameters of the combination. *)
Definition pos (nmp : nat) (add mul : dict) (j : nat) : nat :=
  if firstb nmp add mul j then cnt nmp add mul j else j mod nmp.

(** The added and multiplied value of copy r for parameter k. *)
Definition look (d : dict) (k r : nat) (v : R) : R :=
  match find (fun kv => fst kv =? k) d with Some (_, l) => nth r l v | None => v end.

(** The parameters of copy r. *)
Definition blk (nmp : nat) (add mul : dict) (p : list R) (r : nat) : list R :=
  map (fun k => (nth (pos nmp add mul (k + r * nmp)) p 0 + look add k r 0) * look mul k r 1)%R (seq 0 nmp).

(** Sum or product over the copies. *)
Definition comb (mul : bool) (l : list R) : R :=
  if mul then fold_right Rmult 1%R l else fold_right Rplus 0%R l.

Definition combined (e : expr) (nrep : nat) (mulop : bool) (add mul : dict) (x : R) (p : list R) : R :=
  comb mulop (map (fun r => den e x (blk (enp e) add mul p r)) (seq 0 nrep)).

(** Dictionaries as the constructor accepts them: keys are different, each value has nrepeat members. *)
Definition dict_ok (nmp nrep : nat) (d : dict) : Prop := Forall (fun kv => fst kv < nmp /\ length (snd kv) = nrep) d.
Definition dicts (nmp nrep : nat) (add mul : dict) : Prop :=
  dict_ok nmp nrep add /\ dict_ok nmp nrep mul /\ NoDup (map fst add) /\ NoDup (map fst mul).
