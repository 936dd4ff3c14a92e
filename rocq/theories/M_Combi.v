(** CombiModel (CombiModel.py:127-344): copies of one model, joined by + or *, with parameters tied
    over the copies. *)
From Coq Require Import List Arith Reals Bool.
From Verif Require Import M_Order M_Chain.
Import ListNotations.

(** What __init__ and combine set: the inner model, nmp, nrepeat, addindex, addvalue, mulindex,
    mulvalue, select, expandindex. *)
Record combi := mkCombi
  { c_inner : list (op * bool * mdl); c_nmp : nat; c_nrep : nat;
    c_addi : list nat; c_addv : list R; c_muli : list nat; c_mulv : list R;
    c_select : list nat; c_expand : list nat }.

(** addCombi and mulCombi: a dictionary in order of insertion; None is the same as an empty one.
    Keys are the nonnegative ones. *)
Definition dict := list (nat * list R).

(** setCombi (260-277); None: ValueError.  range( key, npcmax, nmp ) has nrepeat members for key < nmp. *)
Fixpoint setCombi (nmp nrep : nat) (d : dict) : option (list nat * list R) :=
  match d with
  | [] => Some ([], [])
  | (key, vals) :: r =>
      if nmp <=? key then None
      else if negb (length vals =? nrep) then None
      else match setCombi nmp nrep r with
           | Some (idx, v) => Some (map (fun c => key + c * nmp) (seq 0 nrep) ++ idx, vals ++ v)
           | None => None
           end
  end.

(** makeExpandIndex (246-257). *)
Fixpoint expandLoop (nrep i kk : nat) (am : list nat) (ei : list nat) : list nat :=
  match am with
  | [] => ei
  | k :: r => if i mod nrep =? 0 then expandLoop nrep (S i) k r ei
              else expandLoop nrep (S i) kk r (upd k kk ei)
  end.

Definition makeExpandIndex (nrep : nat) (ei am : list nat) : list nat := expandLoop nrep 0 0 am ei.

(** 237-241: the renumbering. *)
Fixpoint renumber (i : nat) (ei : list nat) : list nat :=
  match ei with
  | [] => []
  | a :: r => if i <=? a then i :: renumber (S i) r else a :: renumber i r
  end.

(** 235: sorted( set( expandindex ) ); the members are below npcmax. *)
Definition sortedSet (n : nat) (l : list nat) : list nat := filter (fun j => existsb (Nat.eqb j) l) (seq 0 n).

(** 158-165: copies of the model, appended one by one. *)
Fixpoint copies (o : op) (model : list (op * bool * mdl)) (n : nat) : list (op * bool * mdl) :=
  match n with
  | O => ccopy model
  | S n' => appendModel (copies o model n') o (ccopy model)
  end.

(** __init__ (158-186) with combine (224-243), nrepeat >= 1.  [mul]: oper='mul'. *)
Definition oper (mul : bool) : op := if mul then MUL else ADD.

Definition mkcombi (model : list (op * bool * mdl)) (nrep : nat) (mul : bool) (add mulc : dict) : option combi :=
  let nmp := npchain model in
  let inner := copies (oper mul) model (nrep - 1) in
  match setCombi nmp nrep add, setCombi nmp nrep mulc with
  | Some (ai, av), Some (mi, mv) =>
      let ei := makeExpandIndex nrep (makeExpandIndex nrep (seq 0 (nmp * nrep)) ai) mi in
      Some (mkCombi inner nmp nrep ai av mi mv (sortedSet (nmp * nrep) ei) (renumber 0 ei))
  | _, _ => None
  end.

(** npbase (183-185). *)
Definition c_np (c : combi) : nat := length (c_select c).

(** copy (188-195): the first model of the inner chain, repeated; the operation is that of the
    second link of the chain.  parameters[select] (186) raises when select goes beyond the parameters
    of the copies. *)
Definition combi_copy (c : combi) : option combi :=
  match c_inner c with
  | [] => None
  | (_, _, m) :: r =>
      let mul := match r with (MUL, _, _) :: _ => true | _ => false end in
      match mkcombi [(NOP, true, mcopy m)] (c_nrep c) mul [] [] with
      | Some n => if forallb (fun k => k <? c_nmp n * c_nrep n) (c_select c)
                  then Some (mkCombi (c_inner n) (c_nmp n) (c_nrep n) (c_addi c) (c_addv c) (c_muli c) (c_mulv c)
                                     (c_select c) (c_expand c))
                  else None
      | None => None
      end
  end.

Local Open Scope R_scope.

(** exppar[index] op= value *)
Definition apply_at (f : R -> R -> R) (idx : list nat) (vals : list R) (p : list R) : list R :=
  fold_left (fun p kv => upd (fst kv) (f (nth (fst kv) p 0) (snd kv)) p) (combine idx vals) p.

(** params[index]; None: IndexError. *)
Fixpoint take (idx : list nat) (p : list R) : option (list R) :=
  match idx with
  | [] => Some []
  | k :: r => match nth_error p k, take r p with Some v, Some t => Some (v :: t) | _, _ => None end
  end.

(** expandParameters (279-283). *)
Definition expandParameters (c : combi) (p : list R) : option (list R) :=
  match take (c_expand c) p with
  | Some e => Some (apply_at Rmult (c_muli c) (c_mulv c) (apply_at Rplus (c_addi c) (c_addv c) e))
  | None => None
  end.

(** baseResult (285-298), baseDerivative (331-344). *)
Definition combi_result (c : combi) (x : R) (p : list R) : option R :=
  match expandParameters c p with Some e => cres (c_inner c) x e | None => None end.

Definition combi_deriv (c : combi) (x : R) (p : list R) : option R :=
  match expandParameters c p with Some e => cder (c_inner c) x e | None => None end.

(** The loops of basePartial (317-328). *)
Fixpoint addLoop (nrep i kk : nat) (am : list nat) (full partial : list R) : list R :=
  match am with
  | [] => partial
  | k :: r => if (i mod nrep =? 0)%nat then addLoop nrep (S i) k r full partial
              else addLoop nrep (S i) kk r full (upd kk (nth kk partial 0 + nth k full 0) partial)
  end.

Fixpoint mulLoop (nrep i kk : nat) (am : list nat) (mv : list R) (full partial : list R) : list R :=
  match am with
  | [] => partial
  | k :: r => if (i mod nrep =? 0)%nat
              then mulLoop nrep (S i) k r mv full (upd k (nth k partial 0 * nth i mv 0) partial)
              else mulLoop nrep (S i) kk r mv full (upd kk (nth kk partial 0 + nth k full 0 * nth i mv 0) partial)
  end.

(** basePartial (300-329); parlist is not used. *)
Definition combi_partial (c : combi) (x : R) (p : list R) (parlist : option (list nat)) : option (list R) :=
  match expandParameters c p with
  | None => None
  | Some e =>
      match cpar (c_inner c) x e with
      | None => None
      | Some full =>
          match take (c_select c) full with
          | None => None
          | Some partial =>
              Some (mulLoop (c_nrep c) 0 0 (c_muli c) (c_mulv c) full
                     (addLoop (c_nrep c) 0 0 (c_addi c) full partial))
          end
      end
  end.
