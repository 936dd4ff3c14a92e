(** Model of the construction of a DecisionTreeModel of a given depth (DecisionTreeModel.py:112-178, 254-260) and of the text that describes
    a tree (452-495).  kdim is an integer, None or a list of axes; itypes is a list that is not empty (one integer is the same as a list with
    that integer only); the numbers in split are not negative, so that int() rounds down.  The text is a list of its pieces; how a number
    is written in it is not modelled.  ids=False. *)
From Coq Require Import Reals List Arith ZArith Bool.
From Verif Require Import M_Tree.
Import ListNotations.
Local Open Scope nat_scope.

Inductive err := TypeErr | IndexErr.
Inductive kdimArg := KInt (k : nat) | KNone | KList (l : list nat).
(** None, a number, or a list of them *)
Inductive splitArg := SOne (s : option R) | SList (l : list (option R)).

(** 158-159: split += [Tools.getItem( split, k )], up to the length of kdim; None: IndexError of an empty list *)
Definition extend (split : list (option R)) (klen : nat) : option (list (option R)) :=
  if length split <? klen then
    match split with
    | [] => None
    | _ => Some (split ++ repeat (last split None) (klen - length split))
    end
  else Some split.
(** 254-260 setSplitOrMask: split and mask.  None * int is a TypeError *)
Definition mark (itype : nat) (s : option R) : err + option R * option Z :=
  if itype =? 0 then inr (s, None)
  else match s with None => inl TypeErr | Some s => inr (None, Some (new_mask itype s)) end.
(** 144-176, kdim and split being lists: the tree, and the list split as it is afterwards *)
Fixpoint build (d : nat) (itypes kdim : list nat) (split : list (option R)) : (err + tree) * list (option R) :=
  match d with
  | 0 => (inr (Leaf None), split)
  | S d =>
      match kdim with
      | [] => (inl IndexErr, split)
      | k :: kd1 =>
          match extend split (length kdim) with
          | None => (inl IndexErr, split)
          | Some sp =>
              match mark (getItem itypes k 0) (hd None sp) with
              | inl e => (inl e, sp)
              | inr (s, m) =>
                  let (left', sp1) := build d itypes kd1 (tl sp) in
                  let ns := 2 ^ d - 1 in
                  let (rite', _) := build d itypes (skipn ns kd1) (skipn ns sp1) in
                  match left', rite' with
                  | inl e, _ => (inl e, sp)
                  | _, inl e => (inl e, sp)
                  | inr l, inr r => (inr (Node k s m l r), sp)
                  end
              end
          end
      end
  end.
(** The constructor: the tree with the number of components that it registers (190), and the list split as the caller sees it afterwards *)
Definition newTree (depth : nat) (itypes : list nat) (kdim : kdimArg) (split : splitArg) : (err + tree * nat) * splitArg :=
  match depth, kdim with
  | 0, _ => (inr (Leaf None, 0), split)
  | _, KList kd =>
      let (r, sp) := build depth itypes kd (match split with SOne s => [s] | SList l => l end) in
      (match r with inl e => inl e | inr t => inr (t, 2 ^ depth - 1) end, match split with SOne _ => split | SList _ => SList sp end)
  | _, _ => (inl TypeErr, split)
  end.

(** 471-495 recursiveName *)
Inductive piece :=
| Param (k : nat)                                        (* " parameter %d\n" *)
| AtSplit (dim : nat) (s : R)                            (* " dim %d split at %.2f\n" *)
| AtMask (dim : nat) (m : option Z)                      (* " dim %d mask " ... "\n" *)
| GoLeft (indent : nat) | GoRight (indent : nat).        (* "Left  :", "Right :" *)
Fixpoint recursiveName (t : tree) (indent kpar : nat) : list piece * nat :=
  match t with
  | Leaf _ => ([Param kpar], S kpar)
  | Node d s m l r =>
      let (nl, kl) := recursiveName l (indent + 4) kpar in
      let (nr, kr) := recursiveName r (indent + 4) kl in
      ((match s with Some s => AtSplit d s | None => AtMask d m end) :: GoLeft indent :: nl ++ GoRight indent :: nr, kr)
  end.
(** 452-468 fullName *)
Definition fullName (t : tree) : list piece := fst (recursiveName t 4 0).
