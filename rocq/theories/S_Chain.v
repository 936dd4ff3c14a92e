(** What a compound model should be: an expression over base models. *)
From Coquelicot Require Import Coquelicot.
From Coq Require Import List Arith Reals.
From Verif Require Import M_Chain.
Import ListNotations.
Local Open Scope R_scope.

(** The expression the user writes. *)
Inductive expr := EB (b : base) | EOp (o : op) (e1 e2 : expr).

Fixpoint enp (e : expr) : nat :=
  match e with EB b => b_np b | EOp _ e1 e2 => enp e1 + enp e2 end.

(** NOP is no operator of the user. *)
Fixpoint user (e : expr) : Prop :=
  match e with EB _ => True | EOp o e1 e2 => o <> NOP /\ user e1 /\ user e2 end.

(** Its meaning: the first parameters belong to the left side, the others to the right. *)
Fixpoint den (e : expr) (x : R) (p : list R) : R :=
  match e with
  | EB b => b_f b x p
  | EOp o e1 e2 =>
      let p1 := firstn (enp e1) p in
      let p2 := skipn (enp e1) p in
      match o with
      | NOP => den e2 x p2
      | ADD => den e1 x p1 + den e2 x p2
      | SUB => den e1 x p1 - den e2 x p2
      | MUL => den e1 x p1 * den e2 x p2
      | DIV => den e1 x p1 / den e2 x p2
      | PIP => den e2 (den e1 x p1) p2
      end
  end.

(** The program's object for the expression. *)
Fixpoint build (e : expr) : list link :=
  match e with EB b => single (MBase b) | EOp o e1 e2 => join o (build e1) (build e2) end.

(** The parameter list with the k-th replaced. *)
Definition setp (k : nat) (t : R) (p : list R) : list R := firstn k p ++ t :: skipn (S k) p.

(** g is the gradient of F at p. *)
Definition gradient (F : list R -> R) (p g : list R) : Prop :=
  length g = length p /\
  forall k, (k < length p)%nat -> is_derive (fun t => F (setp k t p)) (nth k p 0) (nth k g 0).

(** The base models are right about their derivative to x where they are used,
    and no division by zero. *)
Fixpoint goodx (e : expr) (x : R) (p : list R) : Prop :=
  match e with
  | EB b => is_derive (fun t => b_f b t p) x (b_dx b x p)
  | EOp o e1 e2 =>
      let p1 := firstn (enp e1) p in
      let p2 := skipn (enp e1) p in
      goodx e1 x p1 /\
      match o with
      | PIP => goodx e2 (den e1 x p1) p2
      | DIV => goodx e2 x p2 /\ den e2 x p2 <> 0
      | _ => goodx e2 x p2
      end
  end.

(** The base models are right about their partials, those behind a pipe also about their
    derivative to x, and no division by zero. *)
Fixpoint goodp (e : expr) (x : R) (p : list R) : Prop :=
  match e with
  | EB b => gradient (b_f b x) p (b_dp b x p)
  | EOp o e1 e2 =>
      let p1 := firstn (enp e1) p in
      let p2 := skipn (enp e1) p in
      goodp e1 x p1 /\
      match o with
      | PIP => goodp e2 (den e1 x p1) p2 /\ goodx e2 (den e1 x p1) p2
      | DIV => goodp e2 x p2 /\ den e2 x p2 <> 0
      | _ => goodp e2 x p2
      end
  end.

(** No base model with fixed parameters stands behind a pipe when more models follow. *)
Fixpoint nofixpipe (last : bool) (e : expr) : Prop :=
  match e with
  | EB _ => True
  | EOp o e1 e2 =>
      nofixpipe false e1 /\ nofixpipe true e2 /\
      (last = false -> o = PIP -> forall b, e2 = EB b -> b_fixed b = false)
  end.

(** The last operation is not a pipe into a compound. *)
Definition nopipe2 (e : expr) : Prop :=
  match e with EOp PIP _ (EOp _ _ _) => False | _ => True end.
