(** SplinesDynamicModel: grow, shrink, vary, varyAlt and copy (SplinesDynamicModel.py:153-384), in real numbers.
    The construction of the basis (BasicSplinesModel.makeBaseBasis, makePeriodicBasis) is a parameter: a function of border,
    knots and number of parameters that fails or yields a basis.  Random numbers: rnd i is the i-th number of
    rng.rand; rint is what rng.randint gives.  A loop that may go on for ever has fuel. *)
From Coq Require Import List Arith ZArith Reals Bool.
From Verif Require Import M_Order M_Dynamic.
Import ListNotations.
Local Open Scope R_scope.

(** Limits of a prior: None when there is none at that side. *)
Record limits := mkLim { lim_lo : option R; lim_hi : option R }.

(** Prior.isOutOfLimits (Prior.py:338-348) *)
Definition isOutOfLimits (l : limits) (v : R) : bool :=
  (match lim_lo l with Some a => if Rlt_dec v a then true else false | None => false end)
  || (match lim_hi l with Some b => if Rlt_dec b v then true else false | None => false end).

(** Prior.stayInLimits (Prior.py:368-382) *)
Definition stayInLimits (l : limits) (v : R) : R :=
  let high := match lim_hi l with Some b => if Rlt_dec b v then b else v | None => v end in
  match lim_lo l with Some a => if Rlt_dec v a then a else high | None => high end.

Section SplinesDyn.
  Context {B : Type} (makeBasis : nat -> list R -> nat -> option B).
  (** minKnots, maxKnots, minDistance; the priors of the model itself (empty: it has none); getPrior of the next model *)
  Context (minKnots : nat) (maxKnots : option nat) (minDistance : R)
          (priors : list limits) (next : nat -> option limits).

  (** knots, border, npbase (= npmax, nothing is fixed), basis; of the head of the chain: _npchain and parameters *)
  Record sds := mkS { s_knots : list R; s_border : nat; s_npbase : nat; s_basis : B; s_npchain : nat; s_pars : list R }.

  (** What a call does: it returns a boolean, it raises an exception, or it does not return; the second and first with
      the state in which the model is left. *)
  Inductive outcome := Return (s : sds) (b : bool) | Raise (s : sds) | Forever.

  Definition kn (ks : list R) (k : nat) : R := nth k ks 0.

  (** Model.getPrior, BaseModel.basePrior (Model.py:1023-1044, BaseModel.py:369-385), of this sub-model and those after it *)
  Definition getPrior (npbase kpar : nat) : option limits :=
    if (kpar <? npbase)%nat
    then match priors with
         | [] => None
         | p :: _ => Some (nth kpar priors (last priors p))
         end
    else next (kpar - npbase).

  (** 223-224: the smallest k >= 1 with newkn <= knots[k]; None: IndexError *)
  Fixpoint place (fuel k : nat) (ks : list R) (x : R) : option nat :=
    match fuel with
    | O => None
    | S f =>
        if (k <? length ks)%nat
        then if Rlt_dec (kn ks k) x then place f (S k) ks x else Some k
        else None
    end.

  Inductive found := Found (k : nat) (x : R) | NoIndex | NotFound.

  (** 221-227 *)
  Fixpoint newKnot (fuel : nat) (rnd : nat -> R) (i : nat) (ks : list R) : found :=
    match fuel with
    | O => NotFound
    | S f =>
        let x := rnd i * (kn ks (length ks - 1) - kn ks 0) + kn ks 0 in
        match place (length ks) 1 ks x with
        | None => NoIndex
        | Some k =>
            if Rlt_dec minDistance (x - kn ks (k - 1))
            then if Rlt_dec minDistance (kn ks k - x) then Found k x else newKnot f rnd (S i) ks
            else newKnot f rnd (S i) ks
        end
    end.

  (** ( npars - nrknots ) // 2 + k + 1 *)
  Definition location (npbase nk k : nat) : nat :=
    Z.to_nat ((Z.of_nat npbase - Z.of_nat nk) / 2 + Z.of_nat k + 1).

  (** 196-260.  The in place change of line 250 is done on the parameters of the head, also when alterParameters raises. *)
  Definition grow (fuel : nat) (rnd : nat -> R) (offset : nat) (force : bool) (s : sds) : outcome :=
    let ks := s_knots s in
    if negb force && (match maxKnots with Some m => (m <=? length ks)%nat | None => false end) then Return s false
    else
      match newKnot fuel rnd 0 ks with
      | NotFound => Forever
      | NoIndex => Raise s
      | Found k x =>
          let ks' := firstn k ks ++ x :: skipn k ks in
          let loc := location (s_npbase s) (length ks) k in
          let npb := S (s_npbase s) in
          let npc := S (s_npchain s) in
          match makeBasis (s_border s) ks' npb with
          | None => Return (mkS ks' (s_border s) npb (s_basis s) npc (s_pars s)) false
          | Some b =>
              let kl := (loc + offset)%nat in
              let value := nth (kl - 1) (s_pars s) 0 * (7 / 10) in
              let pars := upd (kl - 1) value (s_pars s) in
              match alterParameters pars loc 1 offset [value] with
              | None => Raise (mkS ks' (s_border s) npb b npc pars)
              | Some p => Return (mkS ks' (s_border s) npb b npc p) true
              end
          end
      end.

  (** 263-334.  rint n is the result of rng.randint( n ), which raises ValueError when n <= 0.  Exceptions of indexing in
      knots and parameters do not arise with k from 1 to nrknots - 2 and enough parameters; they are not modelled. *)
  Definition shrink (rint : nat -> nat) (offset : nat) (s : sds) : outcome :=
    let ks := s_knots s in
    let nk := length ks in
    if (nk <=? minKnots)%nat then Return s false
    else if (nk <=? 2)%nat then Raise s
    else
      let k := S (rint (nk - 2)%nat) in
      let dis := kn ks (k + 1) - kn ks (k - 1) in
      let r1 := (kn ks k - kn ks (k - 1)) / dis in
      let r2 := (kn ks (k + 1) - kn ks k) / dis in
      let ks' := firstn k ks ++ skipn (S k) ks in
      let loc := location (s_npbase s) nk k in
      let kl := (offset + loc - 1)%nat in
      let p0 := nth kl (s_pars s) 0 in
      let p1 := nth (S kl) (s_pars s) 0 in
      let s1 := mkS ks' (s_border s) (s_npbase s) (s_basis s) (s_npchain s) (s_pars s) in
      match getPrior (s_npbase s) kl with
      | None => Raise s1
      | Some pr =>
          let v := 14 / 10 * (p0 * r1 + p1 * r2) in
          let v := if isOutOfLimits pr v then (stayInLimits pr v + p0 + p1) / 3 else v in
          if isOutOfLimits pr v then Raise s1
          else
            let npb := (s_npbase s - 1)%nat in
            let npc := (s_npchain s - 1)%nat in
            match makeBasis (s_border s) ks' npb with
            | None => Return (mkS ks' (s_border s) npb (s_basis s) npc (s_pars s)) false
            | Some b =>
                match alterParameters (s_pars s) loc (-1) offset [] with
                | None => Raise (mkS ks' (s_border s) npb b npc (s_pars s))
                | Some p => Return (mkS ks' (s_border s) npb b npc (upd kl v p)) true
                end
            end
      end.

  (** 346-354: the knot goes to and fro between its neighbours l and r *)
  Fixpoint moveKnot (fuel : nat) (rnd : nat -> R) (i : nat) (l r x : R) : option R :=
    match fuel with
    | O => None
    | S f =>
        let rn := rnd (2 * i)%nat + rnd (2 * i + 1)%nat - 1 in
        let x := x + rn * (if Rlt_dec rn 0 then x - l else r - x) in
        if Rlt_dec minDistance (x - l)
        then if Rlt_dec minDistance (r - x) then Some x else moveKnot f rnd (S i) l r x
        else moveKnot f rnd (S i) l r x
    end.

  (** 336-366.  Negative locations are not modelled. *)
  Definition vary (fuel : nat) (rnd : nat -> R) (rint : nat -> nat) (loc : option nat) (s : sds) : outcome :=
    let ks := s_knots s in
    let nk := length ks in
    if (nk <=? 2)%nat || (match loc with Some l => (l =? 0)%nat || (l =? nk)%nat | None => false end)
    then Return s false
    else
      let kk := match loc with Some l => l | None => S (rint (nk - 2)%nat) end in
      if (nk <=? kk + 1)%nat then Raise s
      else
        match moveKnot fuel rnd 0 (kn ks (kk - 1)) (kn ks (kk + 1)) (kn ks kk) with
        | None => Forever
        | Some x =>
            let ks' := upd kk x ks in
            match makeBasis (s_border s) ks' (s_npbase s) with
            | None => Raise (mkS ks' (s_border s) (s_npbase s) (s_basis s) (s_npchain s) (s_pars s))
            | Some b => Return (mkS ks' (s_border s) (s_npbase s) b (s_npchain s) (s_pars s)) true
            end
        end.

  (** 368-384 *)
  Definition varyAlt (fuel : nat) (rnd : nat -> R) (rint : nat -> nat) (offset : nat) (s : sds) : outcome :=
    match grow fuel rnd offset true s with
    | Return s1 true => shrink rint offset s1
    | o => o
    end.

  (** copy of a model that stands alone (153-160; 129-150; BasicSplinesModel.py:161-178; BaseModel.py:123-131;
      Model.py:196-200).  knots is passed on, border is not: it has its default 0.  None: ValueError of line 136,
      in which minKnots and maxKnots have their defaults. *)
  Definition copy (s : sds) : option sds :=
    if (length (s_knots s) <? 2)%nat then None
    else Some (mkS (s_knots s) 0 (s_npbase s) (s_basis s) (s_npchain s) (s_pars s)).
End SplinesDyn.
Arguments mkS {B}. Arguments s_knots {B}. Arguments s_border {B}. Arguments s_npbase {B}. Arguments s_basis {B}.
Arguments s_npchain {B}. Arguments s_pars {B}.
Arguments Return {B}. Arguments Raise {B}. Arguments Forever {B}.

(** Constructor, the part on minDistance (134-141): the distance kept, from the number given and the knots *)
Definition minDist (given : R) (ks : list R) : R :=
  given * ((kn ks (length ks - 1) - kn ks 0) / INR (length ks)).
