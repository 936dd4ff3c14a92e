(** Model of FixedModel.py: parameters fixed to a value or replaced by a model.
    One input x; floats are reals. *)
From Coq Require Import List Arith ZArith Reals Bool.
Import ListNotations.

(** What a parameter is fixed to: a float or a model, with its number of parameters, its result
    and its partials (FixedModel.py:95-99). *)
Inductive fixval :=
| FVal (r : R)
| FMod (np : nat) (f : R -> list R -> R) (df : R -> list R -> list R).

Definition ismod (v : fixval) : bool := match v with FMod _ _ _ => true | _ => false end.
Definition fv_np (v : fixval) : nat := match v with FMod np _ _ => np | _ => 0 end.

(** dict[k] = v *)
Fixpoint dict_set (k : Z) (v : fixval) (d : list (Z * fixval)) : list (Z * fixval) :=
  match d with
  | [] => [(k, v)]
  | (k', v') :: r => if (k =? k')%Z then (k', v) :: r else (k', v') :: dict_set k v r
  end.

Record fmodel := mkF
  { npmax : nat;                           (* parameters of the model itself *)
    npb : nat;                             (* _npb *)
    fixed : list (Z * fixval);             (* the dictionary, in insertion order *)
    parlist : list Z;
    mlist : list Z }.

(** numpy.setxor1d: sorted members of exactly one of both lists. *)
Fixpoint insZ (a : Z) (l : list Z) : list Z :=
  match l with
  | [] => [a]
  | b :: r => if (a <? b)%Z then a :: l else if (a =? b)%Z then l else b :: insZ a r
  end.
Definition uniqueZ (l : list Z) : list Z := fold_right insZ [] l.
Definition memZ (a : Z) (l : list Z) : bool := existsb (Z.eqb a) l.
Definition setxor1d (a b : list Z) : list Z :=
  uniqueZ (filter (fun k => negb (memZ k b)) a ++ filter (fun k => negb (memZ k a)) b).

(** FixedModel.__init__ (108-140) with fixed not None, and _setFixed (169-180). *)
Definition fixfix (nparams : nat) (fx : list (Z * fixval)) : list (Z * fixval) :=
  fold_left (fun d kv => dict_set (if (fst kv <? 0)%Z then (fst kv + Z.of_nat nparams)%Z else fst kv)
                                  (snd kv) d) fx [].

Definition mkFixed (nparams : nat) (fx : list (Z * fixval)) : fmodel :=
  let fx' := fixfix nparams fx in
  let npar := nparams + list_sum (map (fun kv => fv_np (snd kv)) fx') in
  {| npmax := nparams; npb := npar; fixed := fx';
     parlist := setxor1d (map Z.of_nat (seq 0 npar)) (map fst fx');
     mlist := map fst (filter (fun kv => ismod (snd kv)) fx') |}.

(** npbase (line 121): the number of parameters one has to give. *)
Definition fnpbase (m : fmodel) : nat := npb m - length (fixed m).

(** Index of a Python list or a numpy array. *)
Definition pyidx (n : nat) (k : Z) : option nat :=
  if (0 <=? k)%Z then (if (k <? Z.of_nat n)%Z then Some (Z.to_nat k) else None)
  else if (- Z.of_nat n <=? k)%Z then Some (Z.to_nat (k + Z.of_nat n)) else None.

Fixpoint setl (k : nat) (v : R) (l : list R) : list R :=
  match l, k with
  | [], _ => []
  | _ :: r, O => v :: r
  | a :: r, S k => a :: setl k v r
  end.

Definition pyset (k : Z) (v : R) (l : list R) : option (list R) :=
  match pyidx (length l) k with Some i => Some (setl i v l) | None => None end.

Fixpoint pysets (ks : list Z) (vs : list R) (l : list R) : option (list R) :=
  match ks, vs with
  | k :: ks, v :: vs => match pyset k v l with Some l' => pysets ks vs l' | None => None end
  | _, _ => Some l
  end.

(** l[ks] = vs of numpy: equal lengths, or one value for all; else ValueError. *)
Definition npassign (ks : list Z) (vs : list R) (l : list R) : option (list R) :=
  if (length ks =? length vs)%nat then pysets ks vs l
  else match vs with
       | [v] => pysets ks (repeat v (length ks)) l
       | _ => None
       end.

(** FixedModel.expand (245-275), the two loops over fixed.  The slice bounds ns (line 262) are
    natural numbers here; they are negative only when keys are out of range. *)
Fixpoint exp_loop (x : R) (fx : list (Z * fixval)) (param : list R) (ns : nat) (par : list R)
    : option (list R) :=
  match fx with
  | [] => Some par
  | (k, v) :: r =>
      match v with
      | FMod np f _ =>
          match pyset k (f x (firstn np (skipn ns param))) par with
          | Some par' => exp_loop x r param (ns + np) par' | None => None end
      | FVal c => match pyset k c par with Some par' => exp_loop x r param ns par' | None => None end
      end
  end.

Definition expand (m : fmodel) (x : R) (param : list R) : option (list R) :=
  match npassign (parlist m) param (repeat 0%R (npb m)) with
  | None => None
  | Some pars =>
      match mlist m with
      | [] => npassign (map fst (fixed m))
                       (map (fun kv => match snd kv with FVal r => r | _ => 0%R end) (fixed m)) pars
      | _ => exp_loop x (fixed m) param (npmax m - length (fixed m)) pars
      end
  end.

(** FixedModel.result (230-243), [F] the result of the model with all its parameters. *)
Definition fresult (F : R -> list R -> R) (m : fmodel) (x : R) (param : list R) : option R :=
  option_map (fun e => F x (firstn (npmax m) e)) (expand m x param).

(** FixedModel.select (182-203); [own k] are the parameters of the model at index k. *)
Definition select (m : fmodel) (own : Z -> list R) (params : list R) : list R :=
  match mlist m with
  | [] => map (fun k => nth (Z.to_nat k) params 0%R) (parlist m)
  | ml => map (fun k => nth (Z.to_nat k) params 0%R)
              (filter (fun k => (k <? Z.of_nat (npmax m))%Z) (parlist m))
          ++ concat (map own ml)
  end.

(** FixedModel.partial (278-314); [DF x full] are the npmax partials of the model itself, its
    basePartial with a parlist is the selection of these. *)
Definition sel_cols (g : list R) (ks : list Z) : list R := map (fun k => nth (Z.to_nat k) g 0%R) ks.

Fixpoint part_loop (x : R) (fx : list (Z * fixval)) (full g : list R) (nb : nat) : list R :=
  match fx with
  | [] => []
  | (k, FMod ne f df) :: r =>
      map (fun d => (nth (Z.to_nat k) g 0 * d)%R) (df x (firstn ne (skipn nb full)))
      ++ part_loop x r full g (nb + ne)
  | (k, FVal _) :: r => part_loop x r full g nb
  end.

Definition fpartial (DF : R -> list R -> list R) (m : fmodel) (x : R) (param : list R)
    : option (list R) :=
  match expand m x param with
  | None => None
  | Some full =>
      let g := DF x (firstn (npmax m) full) in
      match mlist m with
      | [] => Some (sel_cols g (parlist m))
      | _ => let nf := npmax m - length (fixed m) in
             Some (sel_cols g (firstn nf (parlist m)) ++ part_loop x (fixed m) full g (npmax m))
      end
  end.
