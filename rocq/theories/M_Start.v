(** The starting ensemble: NestedSampler.makeFitlist (NestedSampler.py:512-551) and StartEngine.execute (StartEngine.py:73-157).
    Simplified: the log-likelihood is a function of the number of components and the list of all parameters, None when it is not
    finite; the number of tries is the length of the list of random numbers (after the last one the engine raises RuntimeError); the
    parameters that the model itself gets when it grows are zeros here, they are not used by the engine.  The chain has at most one
    dynamic model, which starts at parameter off of the chain. *)
From Coq Require Import List Arith ZArith Reals Bool.
From Verif Require Import M_Order M_Dynamic.
Import ListNotations.

(** A hyper parameter: to be optimised (not isFixed and bound), or with a fixed value. *)
Inductive hyper := Free | FixedAt (v : R).

Definition isFree (h : hyper) : bool := match h with Free => true | FixedAt _ => false end.

(** lines 522-536 *)
Definition hypIndex (hs : list hyper) : list Z :=
  map (fun i => (Z.of_nat i - Z.of_nat (length hs))%Z)
      (filter (fun i => isFree (nth i hs Free)) (seq 0 (length hs))).
Definition fitlist0 (np : nat) (hs : list hyper) : list Z := map Z.of_nat (seq 0 np) ++ hypIndex hs.
Definition hypValue (hasAccuracy : bool) (i : nat) (h : hyper) : R :=
  match h with
  | Free => 0%R
  | FixedAt v => if hasAccuracy && (i =? 0) then 0%R else v
  end.
Definition allpars0 (np : nat) (hs : list hyper) (hasAccuracy : bool) : list R :=
  repeat 0%R np ++ map (fun i => hypValue hasAccuracy i (nth i hs Free)) (seq 0 (length hs)).

Fixpoint lookup (keep : list (Z * R)) (k : Z) : option R :=
  match keep with [] => None | (j, v) :: r => if (j =? k)%Z then Some v else lookup r k end.

(** lines 541-548: the loop over k; None: IndexError of fitlist[k] *)
Fixpoint keepLoop (keep : list (Z * R)) (fitlist : list Z) (ks : list nat) (allpars : list R) (fitl : list Z)
    : option (list Z * list R) :=
  match ks with
  | [] => Some (fitl, allpars)
  | k :: ks =>
      match lookup keep (Z.of_nat k) with
      | Some v => keepLoop keep fitlist ks (upd k v allpars) fitl
      | None =>
          match nth_error fitlist k with
          | None => None
          | Some f =>
              match lookup keep f with
              | Some v => keepLoop keep fitlist ks (upd k v allpars) fitl
              | None => keepLoop keep fitlist ks allpars (fitl ++ [f])
              end
          end
      end
  end.

Definition makeFitlist (np : nat) (hs : list hyper) (hasAccuracy : bool) (keep : option (list (Z * R)))
    : option (list Z * list R) :=
  match keep with
  | None => Some (fitlist0 np hs, allpars0 np hs hasAccuracy)
  | Some kp => keepLoop kp (fitlist0 np hs) (seq 0 (np + length hs)) (allpars0 np hs hasAccuracy) []
  end.

(** numpy: position of index z in an array of length n; p[fit] = vals *)
Definition resolve (n : nat) (z : Z) : nat := if (0 <=? z)%Z then Z.to_nat z else Z.to_nat (Z.of_nat n + z).
Definition assignZ (p : list R) (fit : list Z) (vals : list R) : list R := assign p (map (resolve (length p)) fit) vals.

Section Start.
  Context (lik : nat -> list R -> option R) (u2d : Z -> R -> R) (growf : nat -> dstate R -> option (dstate R * bool)).

  (** lines 118-124: while ncomp < growPrior.unit2Domain( rand ) and grow(); one member of the list for every draw of the prior *)
  Fixpoint growLoop (off : nat) (s : dstate R) (fit : list Z) (draws : list R) : option (dstate R * list Z) :=
    match draws with
    | [] => None
    | g :: draws =>
        if Rlt_dec (INR (d_ncomp s)) g then
          match growf off s with
          | None => None
          | Some (_, false) => Some (s, fit)
          | Some (s1, true) =>
              match alterFitindex fit (d_npbase s) (Z.of_nat (d_npchain s1) - Z.of_nat (d_npchain s)) off with
              | None => None
              | Some f => growLoop off s1 f draws
              end
          end
        else Some (s, fit)
    end.

  (** lines 102-144: the tries; [uval] the unit values of the fitted parameters.  After the first try of a dynamic model the variable
      model is the dynamic model itself instead of the head of the chain, so that the offset is 0 (106-112). *)
  Fixpoint startLoop (dynamic : bool) (npar onp off : nat) (s : dstate R) (fit : list Z) (allp : list R)
      (tries : list (list R * list R)) : option (list R * list Z * R * dstate R) :=
    match tries with
    | [] => None
    | (draws, uval) :: tries =>
        match (if dynamic then growLoop off s fit draws else Some (s, fit)) with
        | None => None
        | Some (s1, fit1) =>
            let allp0 := if dynamic then repeat 0%R (npar + d_npchain s1 - onp) else allp in
            let allp1 := assignZ allp0 fit1 (map (fun fu => u2d (fst fu) (snd fu)) (combine fit1 uval)) in
            match lik (d_ncomp s1) allp1 with
            | Some L => Some (allp1, fit1, L, s1)
            | None => startLoop dynamic npar onp (if dynamic then 0 else off) s1 fit1 allp1 tries
            end
        end
    end.

  (** execute (73-157) *)
  Definition start (dynamic : bool) (off : nat) (s : dstate R) (fit : list Z) (allp : list R) (tries : list (list R * list R)) :=
    startLoop dynamic (length allp) (d_npchain s) off s fit allp tries.
End Start.
