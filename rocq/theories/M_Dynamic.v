(** Model of the parts of Dynamic.py and RepeatingModel.py that keep the parameter lists
    of a dynamic model in step with its number of components. *)
From Coq Require Import List Arith ZArith Reals Bool.
From Verif Require Import M_Order.
Import ListNotations.

(** ** Dynamic.alterParameters  (Dynamic.py:253-310)

    [None] stands for an exception: IndexError (line 302) or numpy's ValueError when the
    shapes of a slice and its right hand side differ.  Simplification: numpy would broadcast
    a right hand side of length one; here that is an exception too, except that [value] is
    always given as a list of length dnp (a scalar value is that list with equal members). *)
Definition alterParameters {A} (param : list A) (location : nat) (dnp : Z) (offset : nat)
    (value : list A) : option (list A) :=
  let np := length param in
  if (0 <? dnp)%Z then
    let d := Z.to_nat dnp in
    let k1 := offset + location in
    if (np <? k1) || negb (length value =? d) then None
    else Some (firstn k1 param ++ value ++ skipn k1 param)
  else
    let d := Z.to_nat (- dnp) in
    if location <? d then None
    else
      let k2 := offset + location in
      let k1 := k2 - d in
      if np <? k2 then None
      else Some (firstn k1 param ++ skipn k2 param).

(** ** Dynamic.alterFitindex  (Dynamic.py:313-352)

    [copy_first] is the while loop of lines 336-338: the leading members in [0,kh), and the
    rest.  [None]: IndexError, more is skipped than there is. *)
Fixpoint copy_first (kh : Z) (findex : list Z) : list Z * list Z :=
  match findex with
  | [] => ([], [])
  | f :: rest =>
      if ((0 <=? f) && (f <? kh))%Z
      then let (a, b) := copy_first kh rest in (f :: a, b)
      else ([], findex)
  end.

Definition alterFitindex (findex : list Z) (location : nat) (dnp : Z) (offset : nat)
    : option (list Z) :=
  let kol := Z.of_nat (offset + location) in
  let kh := if (0 <? dnp)%Z then kol else (kol + dnp)%Z in
  let (a, b) := copy_first kh findex in
  let skip := if (0 <? dnp)%Z then 0 else Z.to_nat (- dnp) in
  let ins := map (fun i => (kol + Z.of_nat i)%Z) (seq 0 (Z.to_nat dnp)) in
  if length b <? skip then None
  else Some (a ++ ins ++ map (fun f => if (0 <=? f)%Z then (f + dnp)%Z else f) (skipn skip b)).

(** ** The state of a dynamic model inside a chain.

    [d_npbase] is Model.npbase of the dynamic sub-model, [d_npchain] the _npchain of the head
    of the chain and [d_pars] the parameters of the head. *)
Record dstate (A : Type) := mkD
  { d_ncomp : nat; d_npbase : nat; d_npchain : nat; d_pars : list A }.
Arguments mkD {A}. Arguments d_ncomp {A}. Arguments d_npbase {A}.
Arguments d_npchain {A}. Arguments d_pars {A}.

(** minComp, maxComp, deltaNpar and - for RepeatingModel - the npbase of the repeated model. *)
Record dconf := mkC
  { c_min : nat; c_max : option nat; c_delta : nat; c_first : nat; c_dyna : bool }.

Definition at_max (c : dconf) (n : nat) : bool :=
  match c_max c with Some m => m <=? n | None => false end.

(** Dynamic.grow (Dynamic.py:131-171): [value] are the new parameters; zeros, or drawn from
    the priors.  alterParameterSize (224-248) returns early when dnp = 0. *)
Definition grow_by {A} (dnp offset : nat) (value : list A) (s : dstate A) : option (dstate A) :=
  match alterParameters (d_pars s) (d_npbase s) (Z.of_nat dnp) offset value with
  | Some p => Some (mkD (d_ncomp s + 1) (d_npbase s + dnp) (d_npchain s + dnp) p)
  | None => None
  end.

Definition dyn_grow {A} (c : dconf) (offset : nat) (value : list A) (s : dstate A)
    : option (dstate A * bool) :=
  if at_max c (d_ncomp s) then Some (s, false)
  else option_map (fun s' => (s', true)) (grow_by (c_delta c) offset value s).

(** Dynamic.shrink (Dynamic.py:173-205). *)
Definition shrink_by {A} (dnp offset : nat) (s : dstate A) : option (dstate A) :=
  match alterParameters (d_pars s) (d_npbase s) (- Z.of_nat dnp) offset [] with
  | Some p => Some (mkD (d_ncomp s - 1) (d_npbase s - dnp) (d_npchain s - dnp) p)
  | None => None
  end.

Definition dyn_shrink {A} (c : dconf) (offset : nat) (s : dstate A) : option (dstate A * bool) :=
  if d_ncomp s <=? c_min c then Some (s, false)
  else option_map (fun s' => (s', true)) (shrink_by (c_delta c) offset s).

(** RepeatingModel.grow (RepeatingModel.py:211-254) and shrink (256-287). *)
Definition rep_grow {A} (c : dconf) (offset : nat) (value : list A) (s : dstate A)
    : option (dstate A * bool) :=
  if negb (c_dyna c) then Some (s, false)
  else if at_max c (d_ncomp s) then Some (s, false)
  else
    let dnp := if 0 <? d_ncomp s then c_delta c else c_first c in
    option_map (fun s' => (s', true)) (grow_by dnp offset value s).

Definition rep_shrink {A} (c : dconf) (offset : nat) (s : dstate A) : option (dstate A * bool) :=
  if negb (c_dyna c) || (d_ncomp s <=? c_min c) then Some (s, false)
  else
    let dnp := if 1 <? d_ncomp s then c_delta c else c_first c in
    option_map (fun s' => (s', true)) (shrink_by dnp offset s).

(** RepeatingModel.__init__ line 153: the number of parameters; [mnp] is model.npchain. *)
Definition rep_npars (ncomp mnp nsame : nat) : Z :=
  (Z.of_nat ncomp * Z.of_nat mnp - (Z.of_nat ncomp - 1) * Z.of_nat nsame)%Z.

(** RepeatingModel.setSame (191-209): the indices of the parameters that are not shared. *)
Definition rep_index (mnp : nat) (same : list nat) : list nat :=
  filter (fun k => negb (existsb (Nat.eqb k) same)) (seq 0 mnp).

(** numpy fancy assignment  pars[index] = vals  (in order of the index). *)
Fixpoint assign {A} (pars : list A) (index : list nat) (vals : list A) : list A :=
  match index, vals with
  | i :: index', v :: vals' => assign (upd i v pars) index' vals'
  | _, _ => pars
  end.

(** RepeatingModel.baseResult (339-371): the while loop of 361-369, [n] components to go.
    [f] is self.model.result at one value of x. *)
Fixpoint rep_loop (f : list R -> R) (index : list nat) (delta : nat) (n : nat) (ke : nat)
    (pars params : list R) (result : R) : R :=
  let result := (result + f pars)%R in
  match n with
  | 0 => result
  | S n' =>
      let ks := ke in
      let ke := ke + delta in
      let pars := assign pars index (firstn delta (skipn ks params)) in
      rep_loop f index delta n' ke pars params result
  end.

Definition rep_result (f : list R -> R) (mnp : nat) (index : list nat) (ncomp : nat)
    (params : list R) : R :=
  match ncomp with
  | 0 => 0%R
  | S n => rep_loop f index (length index) n mnp (firstn mnp params) params 0%R
  end.

(** RepeatingModel.shuffle (289-315).  [per] is rng.permutation( ncomp ).  In step m of the
    loop src is [off + j * delta + m] for the first ncomp - 1 members and offset + index[m]
    for the last. *)
Definition shuffle_src (offset mnp delta ncomp m i : nat) : list nat :=
  map (fun j => mnp + offset + j * delta + m) (seq 0 (ncomp - 1)) ++ [offset + i].

Definition shuffle_step {A} (d : A) (offset mnp delta ncomp : nat) (per : list nat)
    (param : list A) (mi : nat * nat) : list A :=
  let src := shuffle_src offset mnp delta ncomp (fst mi) (snd mi) in
  assign param (map (fun p => nth p src 0) per) (map (fun k => nth k param d) src).

Definition rep_shuffle {A} (d : A) (offset mnp : nat) (index : list nat) (ncomp : nat)
    (per : list nat) (param : list A) : list A :=
  if ncomp <=? 1 then param
  else fold_left (shuffle_step d offset mnp (length index) ncomp per)
                 (combine (seq 0 (length index)) index) param.

(** The engines that change the number of components, seen from the walker:
    BirthEngine.execute lines 121-136 and DeathEngine.execute lines 115-140.  [nhyp] is the
    number of hyper parameters at the end of allpars.  The result is the pair
    (allpars, fitIndex) that is handed to setWalker, plus the new model state. *)
Record dwalker (A : Type) := mkDW { dw_model : dstate A; dw_allpars : list A; dw_fit : list Z }.
Arguments mkDW {A}. Arguments dw_model {A}. Arguments dw_allpars {A}. Arguments dw_fit {A}.

Definition birth_try {A} (growf : dstate A -> option (dstate A * bool)) (nhyp off : nat)
    (w : dwalker A) : option (option (dwalker A)) :=
  let allp := dw_allpars w in
  let np := d_npbase (dw_model w) in
  let m0 := mkD (d_ncomp (dw_model w)) np (d_npchain (dw_model w))
                (firstn (length allp - nhyp) allp) in
  match growf m0 with
  | None => None
  | Some (_, false) => Some None
  | Some (m1, true) =>
      let dnp := (Z.of_nat (d_npbase m1) - Z.of_nat np)%Z in
      match alterFitindex (dw_fit w) np dnp off with
      | None => None
      | Some f => Some (Some (mkDW m1 (d_pars m1 ++ skipn (length allp - nhyp) allp) f))
      end
  end.

(** [shuf] is model.shuffle on the whole list of parameters; it works in place on allpars,
    of which model.parameters is a view (DeathEngine.py:107, 127). *)
Definition death_try {A} (shuf : list A -> list A) (shrinkf : dstate A -> option (dstate A * bool))
    (nhyp off : nat) (w : dwalker A) : option (option (dwalker A)) :=
  let allp := shuf (dw_allpars w) in
  let np := d_npbase (dw_model w) in
  let m0 := mkD (d_ncomp (dw_model w)) np (d_npchain (dw_model w))
                (firstn (length allp - nhyp) allp) in
  match shrinkf m0 with
  | None => None
  | Some (_, false) => Some None
  | Some (m1, true) =>
      let dnp := (Z.of_nat (d_npbase m1) - Z.of_nat np)%Z in
      match alterFitindex (dw_fit w) np dnp off with
      | None => None
      | Some f => Some (Some (mkDW m1 (d_pars m1 ++ skipn (length allp - nhyp) allp) f))
      end
  end.
