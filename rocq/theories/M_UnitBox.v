(** The box of an engine in unit coordinates, Engine.domain2Unit, unit2Domain, makeIndex, getUnitMinmax, getUnitRange
    (Engine.py:238-297, 328-332, 383-421); copying walkers from the phantoms, NestedSampler.copyWalkerFromPhantoms and
    copyWalkerFromDynamicPhantoms (NestedSampler.py:805-850), WalkerList.copy (WalkerList.py:124-147); and the check of a walker,
    Walker.check (Walker.py:181-204) and Explorer.logLcheck (Explorer.py:243-279).  Floats are real numbers.  A result None is an
    exception.  Printing before an exception is left out. *)
From Coq Require Import Reals List ZArith Bool Arith.
From Verif Require Import M_Order.
Import ListNotations.
Local Open Scope R_scope.

(** ** Unit coordinates *)

(** makeIndex 328-332: val has n items *)
Definition makeIndex (np n : nat) : list Z :=
  map Z.of_nat (seq 0 np) ++ map (fun k => (- Z.of_nat k)%Z) (rev (seq 1 (n - np))).

Section Maps.
  (** The map of the problem for parameter k, and the one of the error distribution for hyper-parameter k < 0 ; None raises.
      A raise in the latter becomes 0.0: ErrorDistribution.py:325-328, 340-343. *)
  Context (mapP : nat -> R -> option R) (mapE : Z -> R -> option R).

  Definition mapOne (k : Z) (v : R) : option R :=
    if (0 <=? k)%Z then mapP (Z.to_nat k) v else Some (match mapE k v with Some u => u | None => 0 end).

  (** the loops 262-266, 292-296, over kpar; a value that is not there is an IndexError *)
  Fixpoint mapList (kpar : list Z) (vals : list R) : option (list R) :=
    match kpar, vals with
    | [], _ => Some []
    | _ :: _, [] => None
    | k :: kr, v :: vr =>
        match mapOne k v with
        | None => None
        | Some u => option_map (cons u) (mapList kr vr)
        end
    end.

  (** domain2Unit 238-267, unit2Domain 269-297 without kpar; with a list, kpar is the list *)
  Definition mapAll (np : nat) (vals : list R) : option (list R) := mapList (makeIndex np (length vals)) vals.
End Maps.

(** PhantomCollection.py:149-155, 239-246: minimum and maximum of the columns; more than minpars rows are needed *)
Definition zipR (f : R -> R -> R) (a b : list R) : list R := map (fun xy => f (fst xy) (snd xy)) (combine a b).
Definition paramBox (minpars : nat) (rows : list (list R)) : option (list R * list R) :=
  if (length rows <=? minpars)%nat then None
  else match rows with
       | [] => None
       | r :: rs => Some (fold_left (zipR Rmin) rs r, fold_left (zipR Rmax) rs r)
       end.

(** getUnitMinmax 383-404; npars parameters of the problem, nh hyper-parameters *)
Definition getUnitMinmax (mapP : nat -> R -> option R) (mapE : Z -> R -> option R) (npars nh : nat) (box : option (list R * list R)) : option (list R * list R) :=
  match box with
  | None => Some (zipR Rmin (repeat 0 (npars + nh)) (repeat 1 (npars + nh)), repeat 1 (npars + nh))
  | Some (pamin, pamax) =>
      match mapAll mapP mapE npars pamax, mapAll mapP mapE npars pamin with
      | Some umax, Some umin => Some (zipR Rmin umin umax, umax)
      | _, _ => None
      end
  end.

(** getUnitRange 406-421: the ranges and the minima *)
Definition getUnitRange mapP mapE npars nh box : option (list R * list R) :=
  match getUnitMinmax mapP mapE npars nh box with
  | None => None
  | Some (umin, umax) => Some (zipR (fun a b => Rabs (a - b)) umax umin, umin)
  end.

(** ** Copies of phantoms *)

Record cwalker := mkC { c_id : nat; c_parent : Z; c_start : nat; c_pars : list R; c_logL : R }.

(** WalkerList.copy 139-147 (step is not kept by a Walker) *)
Definition copyInto (ws wlist : list cwalker) (src des start : nat) : option (list cwalker) :=
  match nth_error ws des, nth_error wlist src with
  | Some d, Some s => Some (upd des (mkC (c_id d) (Z.of_nat src) start (c_pars s) (c_logL s)) ws)
  | _, _ => None
  end.

Definition gtb (a b : R) : bool := if Rgt_dec a b then true else false.

(** The loop 817-820: draws from the list of random numbers, until one falls on a phantom above low.  Inl: the index, and the
    random numbers that are left; inr true: exception; inr false: no numbers left, the loop goes on *)
Fixpoint draw (ph : list cwalker) (low : R) (rnd : list nat) : (nat * list nat) + bool :=
  match ph with
  | [] => inr true                                                  (* randint( 0 ) : ValueError *)
  | _ => match rnd with
         | [] => inr false
         | r :: rr => let kcp := (r mod length ph)%nat in
                      match nth_error ph kcp with
                      | None => inr true
                      | Some p => if gtb (c_logL p) low then inl (kcp, rr) else draw ph low rr
                      end
         end
  end.

(** copyWalkerFromPhantoms 814-822, walkers k ... worst-1 *)
Fixpoint copyStatic (ph : list cwalker) (low : R) (start todo k : nat) (rnd : list nat) (ws : list cwalker) : list cwalker + bool :=
  match todo with
  | O => inl ws
  | S n => match draw ph low rnd with
           | inr e => inr e
           | inl (kcp, rr) => match copyInto ws ph kcp k start with
                              | None => inr true
                              | Some ws' => copyStatic ph low start n (S k) rr ws'
                              end
           end
  end.

(** The walk over the keys 840-844: the list found and the index in it.  When no list has the index the last one remains, with the
    index reduced by its length too *)
Fixpoint walk (dict : list (nat * list cwalker)) (kcp : nat) : option (nat * list cwalker * nat) :=
  match dict with
  | [] => None
  | (pk, l) :: r => if (kcp <? length l)%nat then Some (pk, l, kcp)
                    else match r with
                         | [] => Some (pk, l, kcp - length l)%nat
                         | _ => walk r (kcp - length l)
                         end
  end.
(** The loop 837-847; plen is the number of all phantoms *)
Fixpoint drawDynamic (dict : list (nat * list cwalker)) (low : R) (rnd : list nat) : (nat * list cwalker * nat * list nat) + bool :=
  match list_sum (map (fun kl => length (snd kl)) dict) with
  | O => inr true
  | plen => match rnd with
            | [] => inr false
            | r :: rr => match walk dict (r mod plen)%nat with
                         | None => inr true
                         | Some (pk, l, i) => match nth_error l i with
                                              | None => inr true
                                              | Some p => if gtb (c_logL p) low then inl (pk, l, i, rr) else drawDynamic dict low rr
                                              end
                         end
            end
  end.
(** copyWalkerFromDynamicPhantoms 835-850 *)
Fixpoint copyDynamic (dict : list (nat * list cwalker)) (low : R) (start todo k : nat) (rnd : list nat) (ws : list cwalker) : list cwalker + bool :=
  match todo with
  | O => inl ws
  | S n => match drawDynamic dict low rnd with
           | inr e => inr e
           | inl (_, l, i, rr) => match copyInto ws l i k start with
                                  | None => inr true
                                  | Some ws' => copyDynamic dict low start n (S k) rr ws'
                                  end
           end
  end.

(** ** Checks *)

(** A walker of a problem with a model of npars parameters; mlen is the length of model.parameters; None: the problem has no model *)
Record kwalker := mkK { k_model : option (nat * nat); k_pars : list R; k_logL : R; k_fit : list Z }.

(** Walker.check 181-204; true: no exception *)
Definition walkerCheck (w : kwalker) (nhyp nuisance : nat) : bool :=
  match k_model w with
  | None => false                                                   (* None has no npars: AttributeError *)
  | Some (np, mlen) =>
      let na := length (k_pars w) in
      (na =? np + nhyp + nuisance)%nat && (Z.of_nat mlen =? Z.of_nat na - Z.of_nat nhyp - Z.of_nat nuisance)%Z &&
      negb ((0 <? nhyp)%nat && (if Rlt_dec (nth (na - nhyp) (k_pars w) 0) 0 then true else false))
  end.

(** an item by Python index; None: IndexError *)
Definition item (l : list R) (k : Z) : option R :=
  let i := (if (k <? 0) then Z.of_nat (length l) + k else k)%Z in if (i <? 0)%Z then None else nth_error l (Z.to_nat i).

(** Explorer.logLcheck 243-279; logL is the likelihood calculated anew; inP and inE tell whether checkLimit of the prior of a parameter
    or hyper-parameter accepts a value (no prior: false, exception) *)
Definition logLcheck (inP : nat -> R -> bool) (inE : Z -> R -> bool) (nphypar : nat) (logL : list R -> R) (w : kwalker) : bool :=
  walkerCheck w nphypar 0 &&
  match k_model w with
  | None => false
  | Some (np, _) =>
      negb (np <? length (k_pars w) - nphypar)%nat &&
      (if Req_EM_T (logL (k_pars w)) (k_logL w) then true else false) &&
      forallb (fun ki => if (ki <? 0)%Z then match item (k_pars w) ki with Some v => inE ki v | None => false end
                         else if (ki <? Z.of_nat np)%Z then match item (k_pars w) ki with Some v => inP (Z.to_nat ki) v | None => false end
                         else true) (k_fit w)
  end.
