(** Model of the priors and the names of the parameters of a CombiModel (CombiModel.py:352-366, 380-398).  The priors of the repeated model are
    a function prior of the number of its parameter (its getPrior; None is an IndexError); all copies have them, as copies are made with their
    priors (BaseModel.py:126). *)
From Coq Require Import List Arith Bool.
From Verif Require Import M_Combi.
Import ListNotations.

Section Prior.
Context {P : Type}.
(** self.model.getPrior( i ): of the chain of copies (Model.py:1037-1044) *)
Definition innerPrior (nmp nrep : nat) (prior : nat -> option P) (i : nat) : option P :=
  if i <? nmp * nrep then prior (i mod nmp) else None.
(** getPrior (380-398) *)
Definition combiPrior (c : combi) (prior : nat -> option P) (kpar : nat) : option P :=
  match innerPrior (c_nmp c) (c_nrep c) prior kpar with
  | Some p => Some p
  | None => match nth_error (c_select c) kpar with
            | Some j => innerPrior (c_nmp c) (c_nrep c) prior (j mod c_nmp c)
            | None => None
            end
  end.
(** getPrior of a chain with the CombiModel at its head: it is the method of CombiModel that is called; it does not look at the next models *)
Definition chainPrior (c : combi) (prior : nat -> option P) (next : nat -> option P) (kpar : nat) : option P := combiPrior c prior kpar.
End Prior.

(** A name: that of parameter k of the repeated model, or that with _r after it *)
Inductive pname := Plain (k : nat) | Numbered (k r : nat).
(** baseParameterName (352-366); None: IndexError *)
Definition combiName (c : combi) (kpar : nat) : option pname :=
  match nth_error (c_select c) kpar with
  | None => None
  | Some j =>
      let k := j mod c_nmp c in
      if negb (existsb (Nat.eqb k) (c_addi c) || existsb (Nat.eqb k) (c_muli c)) then Some (Numbered k (j / c_nmp c)) else Some (Plain k)
  end.
